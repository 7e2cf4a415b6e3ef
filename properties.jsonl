{"id": "C01", "title": "solutions_up_to is sound", "statement": "Every grid returned by Sudoku::solutions_up_to(limit) is completely filled, contains each of the digits 1-9 exactly once in every row, column and block, and keeps every clue of the puzzle it was called on.", "quantifier": "every 81-cell grid with entries 0-9 (including contradictory ones) and every limit", "why_tests_cant": "There are 10^81 inputs; the propagation is lazy and table driven, so a bug that only shows on a rare interleaving of eliminations is invisible to sampled puzzles.", "anchors": ["src/board/sudoku.rs::solutions_up_to", "src/solver.rs::SudokuSolver::solutions_up_to", "src/solver.rs::_solve", "src/solver.rs::extract_solution"]}
{"id": "C02", "title": "solutions_up_to is complete", "statement": "If Sudoku::solutions_up_to(limit) returns fewer than limit grids then every valid completion of the puzzle is among the returned grids.", "quantifier": "every 81-cell grid with entries 0-9 and every limit", "why_tests_cant": "Completeness is a statement about grids that were not returned; a test can only compare with another solver on a few puzzles.", "anchors": ["src/board/sudoku.rs::solutions_up_to", "src/solver.rs::find_locked_candidates_and_update", "src/solver.rs::find_naked_singles", "src/solver.rs::guess_bivalue_in_cell", "src/solver.rs::guess_some_cell"]}
{"id": "C03", "title": "solutions_up_to never repeats a solution and respects the limit", "statement": "The grids returned by Sudoku::solutions_up_to(limit) are pairwise different and there are at most limit of them; in particular limit 0 returns the empty list.", "quantifier": "every 81-cell grid with entries 0-9 and every limit", "why_tests_cant": "Duplicates would need two branches of the search tree to overlap, on some puzzle with many solutions; sampling cannot exclude it.", "anchors": ["src/board/sudoku.rs::solutions_up_to", "src/solver.rs::guess", "src/solver.rs::_solve"]}
{"id": "C04", "title": "The solver terminates and never indexes out of bounds", "statement": "For every puzzle and limit the search finishes, and none of its array accesses (27 digit/band masks, 3 band masks, the 512-, 81-, 27- and 8-entry lookup tables, the 81-cell output) is ever out of bounds, so the feature unchecked_indexing introduces no undefined behaviour and the default build does not panic.", "quantifier": "every 81-cell grid with entries 0-9 and every limit", "why_tests_cant": "Two loops have no syntactic bound (the bivalue guess loop and the propagation loop); absence of non-termination and of an out-of-range index over all reachable solver states cannot be tested.", "anchors": ["src/solver.rs::UncheckedIndexArray", "src/solver.rs::guess_bivalue_in_cell", "src/solver.rs::find_locked_candidates_and_update", "src/solver.rs::_solve"]}
{"id": "C05", "title": "solutions_count_up_to counts exactly", "statement": "Sudoku::solutions_count_up_to(limit) equals the minimum of limit and the number of valid completions of the puzzle, and equals the length of solutions_up_to(limit).", "quantifier": "every 81-cell grid with entries 0-9 and every limit", "why_tests_cant": "Counting mode is a different code path from collecting mode; agreement must hold on every search tree.", "anchors": ["src/board/sudoku.rs::solutions_count_up_to", "src/solver.rs::Solutions"]}
{"id": "C06", "title": "solutions_up_to_buffer writes a prefix and nothing else", "statement": "Sudoku::solutions_up_to_buffer(buf, limit) returns the same count as solutions_count_up_to(limit); the first min(count, buf.len()) slots contain the grids solutions_up_to(limit) returns, in the same order, and the remaining slots keep their previous contents, even when limit exceeds the buffer length.", "quantifier": "every puzzle, every limit, every buffer length and every previous buffer contents", "why_tests_cant": "Needs all combinations of limit, buffer length and number of solutions; an off-by-one writes past or clobbers a slot only for particular combinations.", "anchors": ["src/board/sudoku.rs::solutions_up_to_buffer", "src/solver.rs::guess"]}
{"id": "C07", "title": "some_solution finds a solution iff one exists", "statement": "Sudoku::some_solution returns Some(g) with g a valid completion if the puzzle has at least one valid completion, and None if it has none.", "quantifier": "every 81-cell grid with entries 0-9", "why_tests_cant": "A false None on one solvable puzzle out of 10^81 cannot be found by testing.", "anchors": ["src/board/sudoku.rs::some_solution"]}
{"id": "C08", "title": "solution returns only the unique solution", "statement": "If Sudoku::solution returns Some(g) then g is a valid completion of the puzzle and the puzzle has no other valid completion.", "quantifier": "every 81-cell grid with entries 0-9", "why_tests_cant": "Uniqueness quantifies over all completions of all puzzles.", "anchors": ["src/board/sudoku.rs::solution"]}
{"id": "C09", "title": "solution finds every unique solution (early exits are correct)", "statement": "If the puzzle has exactly one valid completion then Sudoku::solution returns it; in particular the early exit for puzzles that use fewer than 8 different digits never loses a unique solution, and the early exit for fewer than 17 clues is correct provided no puzzle with fewer than 17 clues has a unique solution (McGuire, Tugemann, Civario 2012).", "quantifier": "every 81-cell grid with entries 0-9", "why_tests_cant": "The early exits rest on a mathematical fact about all puzzles with few clues or few digits.", "anchors": ["src/board/sudoku.rs::solution"]}
{"id": "C10", "title": "is_uniquely_solvable is exact", "statement": "Sudoku::is_uniquely_solvable returns true iff the puzzle has exactly one valid completion.", "quantifier": "every 81-cell grid with entries 0-9", "why_tests_cant": "Quantifies over all completions of all puzzles.", "anchors": ["src/board/sudoku.rs::is_uniquely_solvable"]}
{"id": "C11", "title": "is_solved characterises solved grids", "statement": "Sudoku::is_solved returns true iff all 81 cells are filled and every row, every column and every block contains each digit 1-9 exactly once.", "quantifier": "every 81-cell grid with entries 0-9", "why_tests_cant": "The check inspects bit unions over three house families; equivalence with the definition over all 10^81 grids is not testable.", "anchors": ["src/board/sudoku.rs:638-658"]}
{"id": "C12", "title": "n_clues counts filled cells", "statement": "Sudoku::n_clues equals the number of nonempty cells; it is 81 iff the grid is full and never changes under shuffle.", "quantifier": "every 81-cell grid", "why_tests_cant": "Holds for all grids and all transformations.", "anchors": ["src/board/sudoku.rs::n_clues"]}
{"id": "C13", "title": "Line parsing accepts exactly the documented format", "statement": "Sudoku::from_str_line(s) is Ok iff the first 81 bytes of s are each a digit 0-9 or one of . _ and the string either ends there or continues with one of the delimiters space, tab, newline, carriage return, comma, semicolon; the resulting grid holds digit values with 0 for the placeholders.", "quantifier": "every byte string of any length that is valid UTF-8", "why_tests_cant": "Infinite input space with two separate code paths (fast path for >= 81 bytes and slow path for errors).", "anchors": ["src/board/sudoku.rs::from_str_line"]}
{"id": "C14", "title": "Line parsing errors are exact and total", "statement": "Sudoku::from_str_line never panics; it returns NotEnoughCells(n) exactly when only n < 81 cell characters precede the end of the string or a space or tab, TooManyCells exactly when 81 cell characters are followed by another cell character, MissingCommentDelimiter exactly when they are followed by any other non-delimiter, and InvalidEntry with the position and (whole, possibly multi-byte) character of the first offending character otherwise.", "quantifier": "every string", "why_tests_cant": "The slow path recomputes the reason for the failure independently of the fast path; whether the two always agree (the unreachable fallthrough) needs all strings.", "anchors": ["src/board/sudoku.rs::from_str_line", "src/errors.rs::LineParseError"]}
{"id": "C15", "title": "Line format round trip", "statement": "For every sudoku, from_str_line(to_str_line(s)) = Ok(s), the string has exactly 81 bytes and contains only 1-9 and '.'; appending a delimiter and arbitrary text does not change the result.", "quantifier": "every 81-cell grid with entries 0-9 and every trailing comment", "why_tests_cant": "All grids, all comments.", "anchors": ["src/board/sudoku.rs::to_str_line", "src/board/sudoku.rs::from_str_line"]}
{"id": "C16", "title": "Byte array conversions are exact", "statement": "from_bytes(b) is Ok iff all 81 bytes are <= 9 and then to_bytes gives b back; from_bytes_slice(v) is Ok iff v has exactly 81 bytes all <= 9; iter() yields None for 0 and Some(d) for d in cell order.", "quantifier": "every byte array / slice of any length", "why_tests_cant": "256^81 arrays and unbounded slices.", "anchors": ["src/board/sudoku.rs::from_bytes", "src/board/sudoku.rs::from_bytes_slice", "src/board/sudoku.rs::to_bytes", "src/board/sudoku.rs::iter"]}
{"id": "C17", "title": "Block parsing: accepted strings", "statement": "If from_str_block(s) is Ok(g) then g has entries 0-9 read row by row from the first 9 cells of the nine grid lines of s; every bare grid of nine 9-character lines and every delimited grid with | and - separators is accepted and gives the written digits.", "quantifier": "every string", "why_tests_cant": "Unbounded strings; two line layouts may not be mixed and the parser is a hand written state machine.", "anchors": ["src/board/sudoku.rs::from_str_block"]}
{"id": "C18", "title": "Block parsing: errors and absence of panics", "statement": "from_str_block and from_str_block_permissive never panic on any string: they return Ok or one of the documented errors.", "quantifier": "every string", "why_tests_cant": "The parser indexes a fixed 81-cell array with positions derived from input line and column counters.", "anchors": ["src/board/sudoku.rs::from_str_block", "src/board/sudoku.rs::from_str_block_permissive"]}
{"id": "C19", "title": "Row counts reported in block errors", "statement": "BlockParseError::NotEnoughRows(n) reports the number of rows encountered, as documented.", "quantifier": "every string with fewer than 9 rows", "why_tests_cant": "Quantifies over all short inputs.", "anchors": ["src/board/sudoku.rs::from_str_block", "src/errors.rs::BlockParseError"]}
{"id": "C20", "title": "Block display round trip", "statement": "For every sudoku, from_str_block_permissive of the display_block rendering gives the same sudoku back.", "quantifier": "every 81-cell grid with entries 0-9", "why_tests_cant": "All grids; rendering and parsing are independent implementations of the same layout.", "anchors": ["src/board/sudoku.rs::display_block", "src/board/sudoku.rs::SudokuBlock", "src/board/sudoku.rs::from_str_block_permissive"]}
{"id": "C21", "title": "Serde round trip", "statement": "Serialising a sudoku and deserialising it gives the same sudoku for both the byte (non human readable) and the line-string (human readable) encodings, and deserialisation accepts no other value than a valid grid.", "quantifier": "every 81-cell grid with entries 0-9 and every encoded value", "why_tests_cant": "All grids and all malformed encodings.", "anchors": ["src/board/sudoku.rs::Serialize", "src/board/sudoku.rs::Deserialize"]}
{"id": "C22", "title": "SudokuLine orders like Sudoku", "statement": "Comparing two SudokuLine byte strings gives the same ordering as comparing the Sudokus.", "quantifier": "every pair of grids", "why_tests_cant": "All pairs; relies on the order of '.' and the digit characters.", "anchors": ["src/board/sudoku.rs::SudokuLine"]}
{"id": "C23", "title": "Generated solved grids are solved, for every RNG", "statement": "Sudoku::generate_solved_with_rng never panics and always returns a completely solved grid, whatever values the random number generator produces.", "quantifier": "every infinite stream of random choices", "why_tests_cant": "An adversarial or unlucky RNG stream cannot be enumerated; the final unwrap relies on completeness of the randomized search.", "anchors": ["src/generator.rs::generate_solved", "src/generator.rs::randomized_solve_one"]}
{"id": "C24", "title": "Solved grid generation terminates, for every RNG", "statement": "Sudoku::generate_solved_with_rng performs a bounded number of search steps for every stream of random choices.", "quantifier": "every infinite stream of random choices", "why_tests_cant": "Termination under all RNG behaviours.", "anchors": ["src/generator.rs::randomized_solve_one", "src/generator.rs::insert_entries"]}
{"id": "C25", "title": "Puzzle reduction keeps the clues and the unique solution", "statement": "Sudoku::generate_with_symmetry_and_rng_from(s, sym, rng): the result's clues are a subset of the clues of s with the same digits; if s has exactly one valid completion then so has the result, and it is the same completion.", "quantifier": "every grid s, every symmetry, every random cell order", "why_tests_cant": "Quantifies over all removal orders and all source grids.", "anchors": ["src/board/sudoku.rs::generate_with_symmetry_and_rng_from"]}
{"id": "C26", "title": "Generated puzzles are minimal with respect to their symmetry", "statement": "If s has exactly one completion, then removing all cells of any one symmetry class that still holds clues from the puzzle returned by generate_with_symmetry_and_rng_from(s, sym, rng) gives a puzzle with more than one completion; with Symmetry::None no single clue can be removed.", "quantifier": "every uniquely solvable grid s, every symmetry, every random cell order", "why_tests_cant": "Minimality quantifies over all removal orders; it depends on monotonicity of uniqueness.", "anchors": ["src/board/sudoku.rs::generate_with_symmetry_and_rng_from"]}
{"id": "C27", "title": "Generated puzzles have the requested symmetry", "statement": "Starting from a solved grid, the clue pattern of the puzzle returned by generate_with_symmetry_and_rng_from is invariant under the geometric symmetry that the Symmetry variant documents.", "quantifier": "every solved grid, every symmetry, every random cell order", "why_tests_cant": "All patterns and orders.", "anchors": ["src/board/sudoku.rs::Symmetry::corresponding_cells", "src/board/sudoku.rs::generate_with_symmetry_and_rng_from"]}
{"id": "C28", "title": "Sources that are not uniquely solvable are returned unchanged", "statement": "generate_with_symmetry_and_rng_from returns its argument unchanged if the argument is invalid or has multiple solutions, as documented.", "quantifier": "every grid without a unique completion, every symmetry, every order", "why_tests_cant": "All such grids.", "anchors": ["src/board/sudoku.rs::generate_with_symmetry_and_rng_from"]}
{"id": "C29", "title": "shuffle preserves the puzzle class", "statement": "Sudoku::shuffle maps a puzzle to one related by an explicit invertible sudoku symmetry (transposition, band/stack permutations, row/column permutations inside bands/stacks, digit relabelling): number of clues, number of valid completions, being solved and being uniquely solvable are unchanged.", "quantifier": "every grid and every stream of random choices", "why_tests_cant": "All grids and all of the 1.2 * 10^12 transformations.", "anchors": ["src/board/sudoku.rs::shuffle", "src/board/canonicalization.rs::Transformation"]}
{"id": "C30", "title": "Transformation::random is a genuine transformation for every RNG", "statement": "Whatever the RNG returns, the sampled digit mapping is a permutation of 1-9 fixing 0 (empty cells stay empty) and the sampled line and band permutations are permutations; applying them never panics.", "quantifier": "every stream of random choices", "why_tests_cant": "All RNG streams.", "anchors": ["src/board/canonicalization.rs::Transformation::random", "src/board/canonicalization.rs::Permutation3"]}
{"id": "C31", "title": "canonicalized is invariant under equivalence", "statement": "If two solved grids (or uniquely solvable puzzles) are related by a sudoku symmetry then canonicalized returns the same grid for both.", "quantifier": "every pair of equivalent grids", "why_tests_cant": "3.3 * 10^6 position transformations times 9! relabellings per grid and 6.7 * 10^21 grids.", "anchors": ["src/board/sudoku.rs::canonicalized", "src/board/canonicalization.rs::find_canonical_sudoku_and_transformation"]}
{"id": "C32", "title": "canonicalized returns an equivalent grid, the lexicographically smallest one for solved grids", "statement": "For a solved grid s, canonicalized(s) is related to s by a sudoku symmetry and is lexicographically no larger than any grid related to s; hence canonicalized is idempotent on solved grids.", "quantifier": "every solved grid and every symmetry", "why_tests_cant": "The search prunes bands; minimality against all 1.2 * 10^12 images of every grid is untestable.", "anchors": ["src/board/sudoku.rs::canonicalized", "src/board/canonicalization.rs::find_minlex_band_transformation"]}
{"id": "C33", "title": "canonicalized is defined exactly on solvable input and never panics", "statement": "canonicalized returns Some iff the grid is solved or solution() is Some; for an unsolved puzzle the result is the puzzle under the same transformation that makes its solution canonical, so its solution is the canonical form of the puzzle's solution; no unwrap in the canonicalisation can fail.", "quantifier": "every 81-cell grid with entries 0-9", "why_tests_cant": "The unwraps and position searches depend on the grid being solved, for all solved grids.", "anchors": ["src/board/sudoku.rs::canonicalized", "src/board/canonicalization.rs::find_minimal_transformation_for_band"]}
{"id": "C34", "title": "The automorphism count is the order of the automorphism group", "statement": "The number reported with the canonical form is the number of sudoku symmetries that fix the solved grid.", "quantifier": "every solved grid", "why_tests_cant": "Most grids have exactly one automorphism; grids with many are rare.", "anchors": ["src/board/canonicalization.rs::find_canonical_sudoku_and_transformation"]}
{"id": "C35", "title": "Strategy deductions are sound", "statement": "Every digit placed and every candidate eliminated by StrategySolver::solve agrees with every valid completion of the puzzle: a placed digit is the digit of all completions, an eliminated candidate occurs in none.", "quantifier": "every puzzle and every list of implemented strategies", "why_tests_cant": "Soundness of pattern based eliminations (subsets, fish, wings, locked candidates) over all candidate states.", "anchors": ["src/strategy/solver.rs::solve", "src/strategy/strategies/*.rs"]}
{"id": "C36", "title": "StrategySolver::solve: Ok means solved correctly", "statement": "If StrategySolver::solve returns Ok((g, deductions)) then g is a valid completion of the puzzle the solver was created from, and the only one.", "quantifier": "every puzzle and every list of implemented strategies", "why_tests_cant": "All puzzles and strategy orders.", "anchors": ["src/strategy/solver.rs::solve", "src/strategy/solver.rs::is_solved", "src/strategy/solver.rs::to_sudoku"]}
{"id": "C37", "title": "StrategySolver::solve: Err reports a correct partial state", "statement": "If StrategySolver::solve returns Err((g, deductions)) then g contains the clues and every further digit in g agrees with every valid completion of the puzzle.", "quantifier": "every puzzle and every list of implemented strategies", "why_tests_cant": "All puzzles and strategy orders.", "anchors": ["src/strategy/solver.rs::solve", "src/strategy/solver.rs::to_sudoku"]}
{"id": "C38", "title": "StrategySolver::solve terminates without panicking", "statement": "StrategySolver::solve with any list of the implemented strategies finishes and does not panic (no unwrap, assertion, index or subtraction overflow fails).", "quantifier": "every puzzle and every list of implemented strategies", "why_tests_cant": "All reachable solver states.", "anchors": ["src/strategy/solver.rs::solve", "src/strategy/strategies/xyz_wing.rs"]}
{"id": "C39", "title": "Each strategy finds every instance of its pattern it documents", "statement": "If StrategySolver::solve(&[NakedSingles, HiddenSingles]) returns Err without contradiction then in the remaining grid no empty cell has exactly one candidate and no house has exactly one place for a missing digit.", "quantifier": "every puzzle", "why_tests_cant": "Completeness of a fixpoint over all states.", "anchors": ["src/strategy/strategies/naked_singles.rs", "src/strategy/strategies/hidden_singles.rs"]}
{"id": "C40", "title": "Deductions refer to valid ranges", "statement": "Every Deduction returned by solve can be read back with get/iter without panicking: its conflict range lies inside the list of eliminated candidates, ranges are consecutive, and strategy() names the strategy that produced it.", "quantifier": "every puzzle and every list of implemented strategies", "why_tests_cant": "All runs.", "anchors": ["src/strategy/deduction.rs::with_slices", "src/strategy/deduction.rs::strategy"]}
{"id": "C41", "title": "Set operations are set algebra", "statement": "For every bitset type, union, intersection, symmetric difference, complement, without, contains, overlaps, len, is_empty, is_full and from_bits agree with the mathematical set operations on the elements, and no operation produces an out-of-range bit from in-range inputs.", "quantifier": "every pair of sets of every element type (up to 2^81 sets of cells)", "why_tests_cant": "2^81 cell sets.", "anchors": ["src/bitset.rs::Set"]}
{"id": "C42", "title": "Set iteration is complete and ordered", "statement": "Iterating a Set yields each of its elements exactly once in increasing order and terminates; unique() returns the element iff the set is a singleton, Empty iff it is empty.", "quantifier": "every set of every element type", "why_tests_cant": "2^81 cell sets.", "anchors": ["src/bitset.rs::Iter", "src/bitset.rs::Set::unique"]}
{"id": "C43", "title": "Geometry tables are consistent", "statement": "Cell::row/col/block/row_pos/col_pos/block_pos, House::cells, cell_at, neighbors and the miniline functions agree with the 9x9 geometry: a house's cells are exactly the cells that report that house, cell_at inverts the position functions, neighbors are exactly the 20 other cells sharing a house.", "quantifier": "every cell, house, line, block, position and miniline", "why_tests_cant": "The functions are arithmetic and generated tables; the property relates all of them.", "anchors": ["src/board/positions.rs"]}
{"id": "C44", "title": "Lookup tables match their specification", "statement": "The solver's static tables implement the functions documented beside them: restricted to the minirows present in the shrunken mask, the same-band locked candidate mask is the union of all placements compatible with it (and 0 if there is none), the neighbour-band mask removes exactly the columns forced in a block, SELF_MASK keeps exactly the cells of a band not in conflict with a cell, and the shrink, locked minirow, single column, row and neighbour tables equal their definitions.", "quantifier": "every index of every table", "why_tests_cant": "About 2700 hand-transcribed constants; a single wrong entry affects only few puzzles.", "anchors": ["src/solver.rs::SHRINK_MASK", "src/solver.rs::LOCKED_CANDIDATES_MASK_SAME_BAND", "src/solver.rs::LOCKED_CANDIDATES_MASK_NEIGHBOR_BAND", "src/solver.rs::LOCKED_MINIROWS", "src/solver.rs::COLUMN_SINGLE", "src/solver.rs::nonconflicting_cells_same_band"]}
{"id": "C45", "title": "Solving is deterministic in the limit", "statement": "solutions_up_to(m) is a prefix of solutions_up_to(n) whenever m <= n, so raising the limit never changes or reorders already reported solutions.", "quantifier": "every puzzle and all m <= n", "why_tests_cant": "All puzzles and pairs of limits.", "anchors": ["src/board/sudoku.rs::solutions_up_to", "src/solver.rs::guess_some_cell"]}
{"id": "C46", "title": "StrategySolver candidate state matches its digits", "statement": "grid_state / cell queries of a StrategySolver created by from_sudoku and never fed eliminations report for each empty cell exactly the digits not yet used in its row, column and block, and to_sudoku returns the puzzle it was created from.", "quantifier": "every puzzle without conflicting clues", "why_tests_cant": "All puzzles; the caches are updated lazily.", "anchors": ["src/strategy/solver.rs::from_sudoku", "src/strategy/solver.rs::grid_state", "src/strategy/solver.rs::to_sudoku"]}
{"id": "C47", "title": "insert_candidate rejects conflicting digits", "statement": "StrategySolver::insert_candidate fails if the cell already contains a digit or the digit is impossible there, as documented, and otherwise records the digit.", "quantifier": "every solver state reachable through the public API and every candidate", "why_tests_cant": "All states.", "anchors": ["src/strategy/solver.rs::insert_candidate"]}
{"id": "C48", "title": "StrategySolver recognises solved input", "statement": "StrategySolver::from_sudoku(s).is_solved() is true whenever s is a solved grid, and solve(&[]) on a solved grid returns Ok.", "quantifier": "every solved grid", "why_tests_cant": "6.7 * 10^21 grids.", "anchors": ["src/strategy/solver.rs::is_solved", "src/strategy/solver.rs::solve"]}
{"id": "C49", "title": "Mutant fish strategies can fire", "statement": "There is a puzzle on which Strategy::MutantSwordfish or MutantJellyfish eliminates a candidate.", "quantifier": "existence over all puzzles; the negation ranges over every solver state", "why_tests_cant": "If the search condition is unsatisfiable no test that happens to find nothing shows it.", "anchors": ["src/strategy/strategies/mutant_fish.rs"]}
{"id": "C50", "title": "Constructors reject out-of-range numbers", "statement": "new_checked of every position type and of Digit returns Some exactly for numbers in range; Digit::new and Candidate::new panic exactly on numbers out of range; Cell::new, Row::new, House::new etc. panic on numbers out of range, as their documentation says.", "quantifier": "every number, every position type, every build profile", "why_tests_cant": "Unit tests run with debug assertions, where the debug_assert in new fires; the documented panic is absent in release builds, and range checks are only sampled.", "anchors": ["src/board/positions.rs:175-193", "src/board/digit.rs:13-31", "src/board/candidate.rs:19-28"]}
{"id": "C51", "title": "Permissive block parsing is exact", "statement": "from_str_block_permissive(s) is Ok(g) iff at least nine lines of s contain nine cell characters, and g then holds the first nine cells of the first nine such lines, everything else being ignored; otherwise it returns NotEnoughRows(n) with n exactly the number of such lines; it never panics.", "quantifier": "all strings", "why_tests_cant": "the input language is infinite and the parser ignores arbitrary text, so no finite set of strings covers it", "anchors": ["src/board/sudoku.rs:538-566", "src/errors.rs:56"]}
{"id": "C52", "title": "Every solved grid can be generated", "statement": "For every solved grid there are random choices (a first-row permutation and a sequence of gen_range results) with which generate_solved_with_rng returns exactly that grid.", "quantifier": "every solved grid (about 6.67 * 10^21)", "why_tests_cant": "A test can only sample outputs; that no solved grid is excluded quantifies over all of them.", "anchors": ["src/generator.rs::generate_solved", "src/generator.rs::find_good_random_guess"]}
{"id": "C53", "title": "Generated puzzles are uniquely solvable, symmetric and minimal", "statement": "Sudoku::generate and Sudoku::generate_with_symmetry return, for every behaviour of the random number generator, a grid that has exactly one valid completion, whose clue pattern has the requested symmetry, and from which no symmetry class of clues can be removed without creating a second completion; they never panic.", "quantifier": "every symmetry, every random first row, stream of choices and cell order", "why_tests_cant": "Quantifies over all random choices of both phases of the generation.", "anchors": ["src/board/sudoku.rs:185-196", "src/generator.rs::generate_solved"]}
{"id": "C54", "title": "Generated puzzles are minimal cell by cell", "statement": "As the documentation of generate_with_symmetry_from says without restriction, no single cell of the puzzle it returns can be emptied without losing uniqueness of the solution.", "quantifier": "every solved grid, every symmetry, every cell order", "why_tests_cant": "Quantifies over all puzzles and cells; the claim is in fact false for symmetries other than None.", "anchors": ["src/board/sudoku.rs:202-216"]}
{"id": "C55", "title": "Random choices and symmetries correspond one to one", "statement": "Every sudoku symmetry arises from exactly one combination of the random choices made by Transformation::random (a number below 9!, one bit, eight numbers below 6), so uniform choices give uniformly distributed symmetries; shuffle can reach every grid of the equivalence class.", "quantifier": "every symmetry (about 1.2 * 10^12) and every pair of equivalent grids", "why_tests_cant": "The symmetry group has 2*6^8*9! elements; a sampling bug that makes some unreachable or doubly likely is invisible to a few samples.", "anchors": ["src/board/canonicalization.rs::Transformation::random", "src/board/canonicalization.rs::Permutation3", "src/board/sudoku.rs::shuffle"]}
{"id": "C56", "title": "Only the unfinished strategy panics", "statement": "StrategySolver::solve panics (unimplemented!) for every puzzle if AvoidableRectangles is the first strategy of the list; Strategy::ALL does not contain it.", "quantifier": "every grid and every list of strategies that starts with AvoidableRectangles", "why_tests_cant": "The claim is about all puzzles; a test shows the panic for one of them.", "anchors": ["src/strategy/strategies.rs:100", "src/strategy/strategies.rs:50-68"]}
{"id": "C57", "title": "solve gives up only when no strategy applies", "statement": "If StrategySolver::solve returns Err for a grid that has a valid completion, then none of the patterns of the given strategies (single, locked candidate, naked or hidden subset, fish, wing) that would set a digit or eliminate a candidate is left in the remaining candidates.", "quantifier": "every solver state reachable through the public API and every list of implemented strategies", "why_tests_cant": "A missed pattern shows up only as a puzzle left unsolved, which looks like a hard puzzle; completeness of the searches ranges over all candidate grids.", "anchors": ["src/strategy/solver.rs:251-284", "src/strategy/strategies"]}
{"id": "C58", "title": "Every deduction is justified by the ones before it", "statement": "The list of deductions returned by StrategySolver::solve is a step by step proof: each deduction names cells, digits, houses or lines in which the digits still possible, given the start and the earlier deductions, form the pattern of its strategy, and it sets or eliminates only what that pattern demands; all set digits and eliminations are told by some deduction. Every completion of the puzzle agrees with such a list.", "quantifier": "every solver state reachable through the public API, every list of implemented strategies, every list of justified deductions", "why_tests_cant": "Tests compare final grids or single patterns; that every step of every run, in the order returned, follows from the steps before it ranges over all runs, and a wrong house, digit set or order in one deduction does not change the final grid.", "anchors": ["src/strategy/deduction.rs:37-120", "src/strategy/solver.rs:251-420", "src/strategy/strategies"]}
{"id": "C59", "title": "Text of a cell state", "statement": "CellState's Display writes a digit as itself, several candidates as their digits in ascending order without separator, and an underscore if no candidate is left, filled with spaces on the right up to the requested width.", "quantifier": "all 521 cell states and all widths", "why_tests_cant": "The texts depend on which of 512 candidate sets a cell has; tests look at a few of them.", "anchors": ["src/board/cell_state.rs:12-33"]}
{"id": "C60", "title": "Candidate tables have one layout and can be read back", "statement": "A grid of cell states is written as a table with a border around the nine blocks, each column as wide as its widest cell, all lines of equal length; reading the table with from_grid_state_str gives the same digits and candidates (a single candidate becomes a digit), with or without the last line break.", "quantifier": "every grid of 81 cell states", "why_tests_cant": "The layout depends on the widths of all 81 cells and reading has to undo it for each of 521^81 grids.", "anchors": ["src/board/grid_state.rs:22-95", "src/strategy/solver.rs:1296-1415", "src/strategy/solver.rs:136-159"]}
{"id": "C61", "title": "Display of a strategy solver", "statement": "Printing a StrategySolver never panics. The table shows all placed digits; further digits in it follow from the puzzle. If the puzzle has a solution, the candidates in it are exactly those not excluded by the digits shown and by earlier eliminations, and a solver made from the text has the same solutions.", "quantifier": "every solver state reachable through the public API, including contradictory ones", "why_tests_cant": "Display runs part of the solver on a copy, with caches in any state the public functions can leave behind; tests print a few fresh solvers.", "anchors": ["src/strategy/solver.rs:1114-1148", "src/strategy/solver.rs:136-159"]}
{"id": "C62", "title": "Looking at a solver never panics and shows the placed digits", "statement": "grid_state and cell_state return for every solver and cell, and show as digits exactly those that were given or deduced, also if the puzzle has no solution.", "quantifier": "every solver state reachable through the public API, every cell", "why_tests_cant": "Contradictory grids make the caches inconsistent in ways that tests with valid puzzles never meet.", "anchors": ["src/strategy/solver.rs:161-205"]}
{"id": "C63", "title": "Looking at a cell does not change what solve finds", "statement": "A call of cell_state before solve makes no difference to whether solve finishes the puzzle.", "quantifier": "every solver state, cell and list of strategies", "why_tests_cant": "Needs a comparison of two runs for every state and list of strategies; single runs look fine.", "anchors": ["src/strategy/solver.rs:161-205", "src/strategy/solver.rs:251-284"]}
{"id": "C64", "title": "Any text can be read as a candidate table", "statement": "from_grid_state_str returns for every text: the i-th word that is an underscore or a number describes the i-th cell, missing cells have no candidates.", "quantifier": "every text", "why_tests_cant": "The set of texts is infinite; the panic needs a sign inside a number word.", "anchors": ["src/strategy/solver.rs:136-159"]}
{"id": "C65", "title": "The block parser reports the first problem of the text", "statement": "from_str_block fails exactly if the text has a problem, and the error value is that of the first problem in reading order, with its row, cell and character.", "quantifier": "every text and error value", "why_tests_cant": "Texts with several problems, in every combination and order, are infinitely many; tests check a handful of texts with one problem.", "anchors": ["src/board/sudoku.rs:428-526", "src/errors.rs:59-81"]}
{"id": "C66", "title": "row, col and block of an invalid entry locate the character", "statement": "row() and col() of an InvalidEntry are the position of the offending character in the grid, not counting field delimiters, and block() is the block of that cell.", "quantifier": "every text that the block or line parser rejects because of an invalid entry", "why_tests_cant": "Infinite set of texts; the position is computed differently with and without field delimiters.", "anchors": ["src/errors.rs:23-49", "src/board/sudoku.rs:428-526", "src/board/sudoku.rs:314-356"]}
{"id": "C67", "title": "Error messages identify the error and tell the numbers they name", "statement": "Different errors of one parser have different messages; the number after 'found' is the number of entries found and the number after 'in line' is the number of the line.", "quantifier": "every error value with fields in range, every text", "why_tests_cant": "Messages are not tested at all; equality of messages concerns pairs of errors.", "anchors": ["src/errors.rs:6-98"]}
{"id": "C68", "title": "The 16-bit positions of the strategy solver never wrap around on solvable puzzles", "statement": "During a run of StrategySolver::solve the list of entries has at most 243 elements, and on a grid with a valid completion the list of eliminated candidates has at most 60507 elements, so that next_deduced and last_eliminated, both u16, hold the true positions. The expectation of the source comment that there are at most 2^8 eliminations is wrong.", "quantifier": "every solver state reachable through the public API and every list of implemented strategies", "why_tests_cant": "An overflow would need a particular puzzle and strategy list; the authors say in a comment that they cannot prove it impossible.", "anchors": ["src/strategy/solver.rs:1151-1180", "src/strategy/solver.rs:251-284"]}
{"id": "C69", "title": "Ok from the strategy solver means a valid solution after any calls", "statement": "Whatever calls were made on a StrategySolver before, if solve returns Ok, the grid is a valid solution containing the given and inserted digits. (False after cell_state has hidden a contradiction; true whenever the given and inserted digits have a completion.)", "quantifier": "every sequence of constructor, insert_candidate, to_sudoku and cell_state calls, every list of implemented strategies", "why_tests_cant": "Infinite set of call sequences; the failure needs a particular interleaving of inserting and looking.", "anchors": ["src/strategy/solver.rs:84-284"]}
{"id": "C70", "title": "No sequence of calls makes the strategy solver panic or loop forever", "statement": "After any sequence of calls on a StrategySolver, also on contradictory grids, every public method and reading the deductions returned by solve terminate without a panic and yield well-formed grids and cell states, unless the strategy AvoidableRectangles is used.", "quantifier": "every sequence of public calls with valid arguments, every list of implemented strategies", "why_tests_cant": "Infinite set of call sequences; caches may be left half updated by a failed update.", "anchors": ["src/strategy/solver.rs:84-655", "src/strategy/solver.rs:657-1180", "src/strategy/deduction.rs:1-242"]}
{"id": "C71", "title": "Avoidable rectangles are found exactly, and the avoided digit is wrong", "statement": "find_avoidable_rectangles calls its callback exactly once for each rectangle with three corners filled by the player with two digits and an empty corner with exactly one of these two as candidate; if the clues have one solution, then the reported candidate is not in the solution, and with candidates that are up to date every rectangle that would allow a second solution is reported.", "quantifier": "all grids, clues, candidate sets and callbacks", "why_tests_cant": "No public function calls the search yet; needs a proof over all grids, and the soundness argument swaps the corners of a solution.", "anchors": ["src/strategy/strategies/avoidable_rectangles.rs:5-80"]}
{"id": "C72", "title": "Almost locked sets are listed exactly, and the search that uses them returns", "statement": "_find_almost_locked_sets lists for each house and size exactly the almost locked sets, each once, and find_almost_locked_sets returns without a panic. (The second part is false: it indexes a table of 8 with 8 for all inputs.)", "quantifier": "all candidate sets", "why_tests_cant": "2^729 candidate tables; no public function calls it.", "anchors": ["src/strategy/strategies/almost_locked_sets.rs:5-126"]}
{"id": "C73", "title": "Links between candidates", "statement": "find_direct_links finds all strong and weak links between candidates of a cell or house, and only those: in each solution exactly one of two strongly linked candidates and at most one of two weakly linked ones is right. (Links of a candidate in a cell with two candidates to other cells are missed, so that links are not found in both directions.)", "quantifier": "all candidate sets with the table of positions that belongs to them", "why_tests_cant": "2^729 candidate tables; no public function calls it.", "anchors": ["src/strategy/utils.rs:21-96"]}
{"id": "C74", "title": "Shuffling is uniform", "statement": "Of all choices of the random number generator, each grid equivalent to the given one results from equally many, namely as many as the grid has automorphisms; so with a fair generator shuffle is uniform over the equivalent grids.", "quantifier": "all grids and all grids equivalent to them", "why_tests_cant": "1218998108160 choices; a statistical test cannot tell uniform from nearly uniform.", "anchors": ["src/board/sudoku.rs:685-694", "src/board/canonicalization.rs:40-92"]}
{"id": "C75", "title": "The number of automorphisms determines the number of equivalent grids", "statement": "The number of grids equivalent to a grid times the number of its automorphisms, which canonicalized reports for a solved grid, is 1218998108160.", "quantifier": "all grids", "why_tests_cant": "Up to 10^12 equivalent grids.", "anchors": ["src/board/sudoku.rs:670-683", "src/board/canonicalization.rs:40-92"]}
{"id": "C76", "title": "More strategies find more, and their order does not matter", "statement": "On grids with a completion, a list of strategies that exhausts everything the strategies of another list can turn into finds at least as many digits and rules out at least as many candidates, also from a later state; two lists that cover each other end with the same result, grid and candidates in whatever order they are. (For arbitrary reorderings this is false: NakedSingles in the first place are not exhausted.)", "quantifier": "all lists of implemented strategies, all solvers the public functions produce", "why_tests_cant": "Needs an argument over all runs: what one strategy finds must stay findable after any deductions of the others.", "anchors": ["src/strategy/solver.rs:240-330", "src/strategy/strategies.rs"]}
{"id": "C77", "title": "The two solvers agree", "statement": "If solving by strategies succeeds with a grid, then the fast solver reports exactly that grid as only solution in all its functions (solution only with at least 17 clues); and every digit found by strategies is in every solution that the fast solver lists.", "quantifier": "all puzzles, all lists of implemented strategies, all limits", "why_tests_cant": "Relates two independent implementations on all puzzles.", "anchors": ["src/strategy/solver.rs:240-247", "src/board/sudoku.rs:571-632"]}
{"id": "C78", "title": "Solving commutes with symmetries", "statement": "Counting, uniqueness and the only solution do not depend on how a puzzle is written down: applied to the image of a puzzle under a symmetry, the solver reports the same count and the image of the solution; the only solution of a puzzle has all symmetries of the puzzle.", "quantifier": "all symmetries, all puzzles, all limits", "why_tests_cant": "1218998108160 symmetries of every puzzle; band order and digit masks of the solver are not symmetric.", "anchors": ["src/board/sudoku.rs:571-632", "src/board/canonicalization.rs:40-130"]}
{"id": "C79", "title": "Shuffling preserves which strategies apply", "statement": "For a list of strategies that exhausts what its strategies can turn into, solving by strategies commutes with all symmetries: from the image of a puzzle (also with further digits and eliminations made by the caller) the solver ends with the same success, the image of the grid and the image of the candidates. In particular shuffling a solvable puzzle keeps which strategies solve it and how far they get. (For arbitrary lists, as the documentation of shuffle has it, this is false.)", "quantifier": "all symmetries, all random choices of shuffle, all solvable puzzles and states the public functions produce, all lists of implemented strategies that cover themselves", "why_tests_cant": "1218998108160 symmetries of every puzzle, and the searches go through cells, houses and digits in a fixed order.", "anchors": ["src/board/sudoku.rs:664-694", "src/strategy/solver.rs:240-330"]}
{"id": "C80", "title": "The Project Euler program prints the right sum", "statement": "The program examples/project_euler.rs cuts its file at the word Grid, reads each piece after the first as a board, and prints in decimal the sum of the three-digit numbers in the top left corners of the solutions. It panics exactly if a piece has fewer than nine rows or its board has no solution (or the sum does not fit into 32 bits).", "quantifier": "all texts in place of the file", "why_tests_cant": "The program runs on one file of 50 boards and has no tests.", "anchors": ["examples/project_euler.rs:9-22", "src/board/sudoku.rs:538-566", "src/board/sudoku.rs:571-577"]}
{"id": "C81", "title": "The examples print the solution of their puzzle", "statement": "The program examples/example.rs and the example in the documentation of the library print the cells of the solution in line format if the puzzle has exactly one solution and nothing otherwise; texts that are not in a block or line format make them panic. As its comment says, examples/example.rs ignores bars between boxes, which can be omitted.", "quantifier": "all texts in place of the literals", "why_tests_cant": "Example programs are compiled but not run by the tests, and each has one literal.", "anchors": ["examples/example.rs:3-20", "src/lib.rs:25-42", "src/board/sudoku.rs:428-530", "src/board/sudoku.rs:580-600"]}
{"id": "C82", "title": "At most 648 automorphisms", "statement": "As the documentation of shuffle says, the highest number of automorphisms a sudoku can have is 648: no solved grid and no puzzle with exactly one solution has more, and some grid has 648. So the number reported with the canonical form never exceeds 648, and every such puzzle has at least 2 * 9! * 6^8 / 648 shuffled forms. (A board with several solutions can have more: all 1,218,998,108,160 symmetries fix the empty board.)", "quantifier": "all solved grids and all puzzles with exactly one solution", "why_tests_cant": "There are 6.7 * 10^21 solved grids; the only test counts the automorphisms of one.", "anchors": ["src/board/sudoku.rs:677-680", "src/board/canonicalization.rs:141-171", "src/board/canonicalization.rs:477-486"]}
{"id": "C83", "title": "Rotations and mirror images are shuffles", "statement": "As the documentation of shuffle says, rotations and mirrorings of the board can be produced by a combination of the listed transformations: for each of the eight rotated or mirrored forms of a board some choice of the random number generator makes shuffle return it.", "quantifier": "all boards, all compositions of quarter turns and mirrorings", "why_tests_cant": "The choices that give one of eight forms are a vanishing part of 10^12; random tests will not hit them.", "anchors": ["src/board/sudoku.rs:665-688", "src/board/canonicalization.rs:40-90"]}
{"id": "C84", "title": "Exactly the minimal puzzles can be generated", "statement": "A puzzle is the result of generate_with_symmetry for some random choices if and only if it has exactly one solution, its clues are symmetric and no class of clues tied by the symmetry can be removed without losing uniqueness; without symmetry these are exactly the minimal puzzles. From a given uniquely solvable puzzle exactly those puzzles can be made that keep all or no clues of each class, are uniquely solvable and lose uniqueness whenever a class is removed. So the generator is neither wrong nor blind to any minimal puzzle.", "quantifier": "all boards, all symmetries, all source puzzles with one solution", "why_tests_cant": "The number of minimal puzzles is about 3 * 10^37; tests can show that some results are minimal but never that every minimal puzzle can come out.", "anchors": ["src/board/sudoku.rs:185-196", "src/board/sudoku.rs:227-269", "src/generator.rs:239-283"]}
{"id": "C85", "title": "Reducing a puzzle twice is the same as reducing it once", "statement": "generate_with_symmetry_from gives a grid back unchanged if and only if no class of its clues can be emptied so that exactly one solution is left; this holds for every grid, also one without a solution. Hence applying it to its own result for a uniquely solvable source, with any other random order, changes nothing.", "quantifier": "all boards, all symmetries, all orders", "why_tests_cant": "For each board there are 81! orders, and whether a clue can be removed is a statement about all completions.", "anchors": ["src/board/sudoku.rs:227-269"]}
{"id": "C86", "title": "Limits on the clues of generated puzzles", "statement": "Every generated puzzle has at least eight clues with at least eight different digits and never leaves two rows of a band or two columns of a stack empty; without symmetry no row, column or block is full, each digit is given at most eight times and there are at most 72 clues.", "quantifier": "all behaviours of the random number generator, all symmetries", "why_tests_cant": "Generated samples have 20 to 30 clues and say nothing about the extremes.", "anchors": ["src/board/sudoku.rs:185-196", "src/board/sudoku.rs:227-269"]}
{"id": "C87", "title": "The strategy solver finds everything its strategies can prove", "statement": "For a list of strategies that exhausts what its own strategies can turn into, and a grid with a completion: solve succeeds if and only if there is a list of deductions at all, in any order, each following by the pattern of a strategy of the list from those before it, that places all 81 digits; and a candidate is left in the end if and only if no such list excludes it. So a grid that is given up cannot be solved by these strategies in any other order of steps. (For arbitrary lists this is false: NakedSingles in the first place are not exhausted.)", "quantifier": "all lists of implemented strategies, all solvers the public functions produce, all lists of deductions", "why_tests_cant": "A test can compare with a few other orders of deductions, not with all sequences of patterns.", "anchors": ["src/strategy/solver.rs:240-330", "src/strategy/strategies.rs"]}
{"id": "C88", "title": "Counting solutions is consistent with adding clues", "statement": "For an empty cell the counts of the nine puzzles with one of the digits put there add up (up to the limit) to the count of the puzzle; adding clues never increases a count; adding clues taken from a solution keeps that solution, and if it was the only one the solver still reports it as the only one.", "quantifier": "all boards, cells, limits", "why_tests_cant": "These relations between different inputs have to hold for all boards; each test compares the counts of a single board.", "anchors": ["src/board/sudoku.rs:571-640", "src/solver.rs::Solutions"]}
{"id": "C89", "title": "The grid returned by the strategy solver has the solutions of the puzzle", "statement": "Whether solve succeeds or gives up, the returned board keeps the clues of the puzzle and has exactly the same solutions; the backtracking solver counts as many for the one as for the other, for every limit.", "quantifier": "all boards (also with several solutions or none), all lists of implemented strategies, all solvers the public functions produce for the board", "why_tests_cant": "Equality of sets of solutions cannot be tested for boards with many solutions, and a wrong deduction shows only for a board with the right pattern.", "anchors": ["src/strategy/solver.rs:240-330", "src/board/sudoku.rs:604-625"]}
{"id": "C90", "title": "canonicalized is idempotent, for puzzles too", "statement": "The result of canonicalized, for a puzzle as well as for a solved grid, is its own canonical form with the same number of automorphisms; exactly those puzzles are left unchanged whose solution is the lexicographically smallest grid of its class.", "quantifier": "every 81-cell grid with entries 0-9", "why_tests_cant": "The transformation applied to a puzzle is the first minimal one found for its solution; that this is the identity for a canonical solution with several automorphisms depends on the search order, for all such grids.", "anchors": ["src/board/sudoku.rs::canonicalized", "src/board/canonicalization.rs::find_canonical_sudoku_and_transformation"]}
{"id": "C91", "title": "Which results canonicalized has for the puzzles of one class", "statement": "Puzzles with the same result are equivalent. The results for the puzzles equivalent to a given one are exactly the images of its result under the symmetries of the canonical solution; their number times the number of symmetries of the puzzle is the automorphism count returned; so the result is the same for the whole class, as documented, exactly if the puzzle has every symmetry of its solution.", "quantifier": "every pair of equivalent puzzles", "why_tests_cant": "Classes have up to 1.2 * 10^12 members.", "anchors": ["src/board/sudoku.rs::canonicalized", "src/board/canonicalization.rs::find_canonical_sudoku_and_transformation"]}
{"id": "C92", "title": "What the strategy solver finds depends only on the digits and candidates it shows", "statement": "Two solvers of solvable grids that show the same grid_state find the same with lists of strategies that cover each other: the same outcome, grid and remaining candidates, whatever calls they come from. So saving with grid_state and restoring with from_grid_state loses nothing, and looking at cells does no harm.", "quantifier": "all solvers the public functions produce with a completion, all pairs of lists of implemented strategies that cover each other", "why_tests_cant": "The order of the deductions and the caches differ between the two solvers; equality of the results for all histories cannot be tested.", "anchors": ["src/strategy/solver.rs:110-130", "src/strategy/solver.rs:168-206", "src/strategy/solver.rs:240-286"]}
{"id": "C93", "title": "Solving in stages loses nothing", "statement": "Solving a solvable puzzle with one list of strategies and then the returned grid with a list that covers it and itself gives the outcome, grid and remaining candidates of solving the puzzle with the latter at once; in particular solving a returned grid again with the same list changes nothing. For lists with naked singles in the first place this is false: the returned grid can be solved by the list that gave up.", "quantifier": "all solvable boards, all lists of implemented strategies as described", "why_tests_cant": "The eliminated candidates are lost between the stages; that they can always be found again concerns all puzzles and lists.", "anchors": ["src/strategy/solver.rs:84-108", "src/strategy/solver.rs:240-286"]}
{"id": "C94", "title": "Subsets come in pairs of a naked and a hidden one, fish in pairs of rows and columns", "statement": "In a position that has a solution, a naked subset of n cells that removes a candidate comes with a hidden subset of k >= 1 digits in the same house that removes one, with n + k <= 9, and the other way around; a fish of n lines that removes a candidate comes with one of k lines in the other direction, n + k <= 9, unless there is a hidden single.", "quantifier": "all lists of placed digits and removed candidates with a completion, all n", "why_tests_cant": "It concerns all positions, and patterns of sizes for which the crate has no code.", "anchors": ["src/strategy/strategies.rs:38-70", "src/strategy/strategies/naked_subsets.rs:3", "src/strategy/strategies/hidden_subsets.rs:3", "src/strategy/strategies/basic_fish.rs:3"]}
{"id": "C95", "title": "Looking for subsets and fish of at most four misses nothing", "statement": "When the solver gives up a solvable position with a list that exhausts the subsets of two to four and the singles, no naked or hidden subset of any size removes a candidate; with naked singles in the first place of the list (as in Strategy::ALL) this holds unless a naked single is left. When the list exhausts hidden singles, X-wings, swordfish and jellyfish, no fish of any size removes a candidate.", "quantifier": "all solvers of the public functions with a completion, all lists of implemented strategies as described, all sizes", "why_tests_cant": "The absence of larger patterns after every run cannot be tested; the crate has no code that looks for them.", "anchors": ["src/strategy/solver.rs:240-286", "src/strategy/strategies.rs:38-102"]}
{"id": "C96", "title": "The shape of canonical forms", "statement": "The result of canonicalized for a solved grid begins with 1 2 3 4 5 6 7 8 9 4 5 and then 6 or 7; in every band the first digits of the rows are increasing, and the second band begins with a smaller digit than the third one. The result for a puzzle has exactly one solution, and this solution has the same shape.", "quantifier": "all solved grids and all puzzles for which canonicalized returns a result", "why_tests_cant": "There are 5 472 730 538 classes of solved grids, and far more of puzzles.", "anchors": ["src/board/canonicalization.rs:133"]}
{"id": "C97", "title": "The text formats are told apart", "statement": "No text is accepted by both from_str_line and from_str_block: from_str_block refuses whatever from_str_line accepts with InvalidLineLength(0), and from_str_line refuses whatever from_str_block accepts at the first delimiter, comment or line end. from_str_block_permissive refuses a single line with NotEnoughRows(1); it does accept texts of nine or more such lines, and reads another grid from them than from_str_line does.", "quantifier": "all texts", "why_tests_cant": "Both formats allow arbitrary comments, so there are infinitely many texts of either format.", "anchors": ["src/board/sudoku.rs:314", "src/board/sudoku.rs:428", "src/board/sudoku.rs:538"]}
{"id": "C98", "title": "Every grid can be written as a block, and the block parsers agree", "statement": "Every grid, written row by row with or without field delimiters (of either kind), is read back by from_str_block. What from_str_block reads, from_str_block_permissive reads as the same grid, unless a line between the bands has a comment with nine cells, in which case the grids can differ. from_str_block refuses the output of display_block for every grid.", "quantifier": "all grids; all texts", "why_tests_cant": "There are 10^81 grids and infinitely many texts.", "anchors": ["src/board/sudoku.rs:428", "src/board/sudoku.rs:538", "src/board/sudoku.rs:881"]}
{"id": "C99", "title": "Puzzle generation commutes with shuffles", "statement": "Removing clues from a shuffled source, with the order of the cells shuffled along, gives the shuffled puzzle: for every shuffle when no symmetry is asked for, for every renaming of digits with any symmetry, and for transposed or mirrored boards with the axes exchanged accordingly. So no digit, row or column is preferred by the generator except by the random order. It is not so for arbitrary shuffles together with a symmetry.", "quantifier": "all grids; all orders of the cells; all symmetries of grids and of patterns", "why_tests_cant": "81! orders, 10^81 sources and 1.2 * 10^12 shuffles; a run depends on up to 81 calls of the solver.", "anchors": ["src/board/sudoku.rs:227", "src/board/sudoku.rs:125"]}
{"id": "C100", "title": "The symmetries of patterns are complete and ordered", "statement": "The ten values of Symmetry are all there are: a pattern of clues unchanged by any choice of rotations and mirror images of the board is one with a single one of them. One symmetry implies another exactly as listed (e.g. BidiagonalMirror implies HalfRotation but not VerticalMirror). A puzzle reduced with some symmetry is left unchanged by a reduction with a symmetry that implies it; the other way round it may be reduced further.", "quantifier": "all grids; all sets of rotations and mirror images; all pairs of symmetries; all orders of the cells", "why_tests_cant": "The claims are about all patterns of clues (2^81) and all orders of removal (81!).", "anchors": ["src/board/sudoku.rs:100", "src/board/sudoku.rs:125", "src/board/sudoku.rs:227", "src/board/sudoku.rs:928"]}
{"id": "C101", "title": "The search is no deeper than the number of empty cells", "statement": "The recursion of the solver's guess function is at most one call deep for each cell without a clue, and one more: every nested guess solves at least one further cell for good. So no grid, valid or not and with any number of solutions asked for, needs more than 82 nested calls, and the stack cannot overflow.", "quantifier": "all grids; all limits; all kinds of solution storage", "why_tests_cant": "The depth depends on the whole course of the search, over 10^81 grids; grids with few clues have far too many branches to follow.", "anchors": ["src/solver.rs:343", "src/solver.rs:368", "src/solver.rs:420", "src/solver.rs:155"]}

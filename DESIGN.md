# Formal model of the `sudoku` crate (Rocq / Coq 8.16.1)

All Coq sources are in `rocq/theories`, compiled with `-Q theories Verif`. `properties.jsonl` states the properties in
English, `MANIFEST.json` maps each to its theorems, `seeded/LOG.jsonl` records the wrong programs the theorems were
tested against.

## Layout

Specification files refer to no function of the model (at most to the names of data types).

| area | specification | model | proofs | theorems |
|---|---|---|---|---|
| solver | `Spec` | `Tables`, `Solver`, `Api` | `BitLemmas`, `GridProofs`, `TableProofs`, `ProcessProofs`, `StateProofs`, `OpProofs`, `SolverInv`, `LoopProofs`, `GuessProofs`, `ApiProofs` | `PropertiesSolver` |
| lookup tables | `TableSpec` | `Tables` | `TableProps` | `PropertiesTables` |
| bit sets, positions | `TableSpec`, `GeomSpec` | `Bits`, `Geom` | `BitsProofs`, `GeomProofs` | `PropertiesSets` |
| parsing, printing, serde | `ParseSpec` | `Parse` | `ParseProofs`, `BlockProofs` | `PropertiesParse` |
| removal of clues | `SymSpec` | `SymGen` | `SymProofs` | `PropertiesSym` |
| random solved grids | `Spec`, `SymSpec` | `Gen` | `GenProofs`, `DefaultProofs` | `PropertiesGen` |
| shuffle, canonical form | `CanonSpec` | `Canon` | `EquivProofs`, `TransProofs`, `MinlexProofs`, `CanonProofs`, `CanonMain`, `CanonApi` | `PropertiesCanon` |
| strategy solver | `StratUse`, `StratSpec`, `StratWhy` | `Strat`, `StratFind`, `StratSolve` | `StratInv`, `StratPos`, `StratFound`, `StratWalk`, `StratWing`, `StratMutant`, `StratCall`, `StratHist`, `StratStuck`, `StratPush`, `StratDeduce`, `StratMain`, `StratOnce`, `StratApi`, `StratCertify`, `StratLog`, `StratFibre`, `StratCount`, `StratBound` | `PropertiesStrat` |
| texts with candidates, queries | `ShowSpec`, `StratUse` | `Show` | `ShowProofs`, `ShowStrat` | `PropertiesShow` |
| any sequence of calls on a strategy solver | `StratCallsSpec`, `StratUse` | (as above) | `StratTotal`, `StratSearch`, `StratNever` | `PropertiesCalls` |
| parse errors | `BlockErrSpec` | `Errors`, `Parse` | `BlockErr`, `ErrorProofs` | `PropertiesErrors` |
| unfinished searches | `WipSpec` | `Wip` | `RectProofs`, `AlsProofs`, `LinkProofs` | `PropertiesWip` |
| relations between these parts | `ShuffleSpec`, `StratOrderSpec`, `StratSymSpec`, `RelateSpec` | (as above) | `ShuffleProofs`, `StratOrder`, `StratSym`, `RelateProofs` | `PropertiesRelate`, `PropertiesStratSym` |
| example programs | `ProgramSpec` | `Programs` | `ProgramProofs`, `ProgramSamples` | `PropertiesPrograms` |
| automorphisms, rotations | `CanonSpec`, `AutoSpec` | `Canon` | `AutoBound`, `AutoProofs` | `PropertiesAuto` |
| reachable puzzles | `SymSpec`, `ReachSpec` | `Gen`, `SymGen` | `ReachProofs` | `PropertiesReach` |
| unchanged puzzles, numbers of clues | `SymSpec`, `ReachSpec`, `RelateSpec`, `KeepSpec` | `Gen`, `SymGen` | `KeepProofs` | `PropertiesKeep` |
| what strategies can prove | `StratWhy`, `StratSpec`, `StratOrderSpec` | `StratFind`, `StratSolve` | `StratComplete` | `PropertiesComplete` |
| adding clues | `SplitSpec` | `Api`, `StratSolve` | `SplitProofs` | `PropertiesSplit` |
| canonical puzzles | `CanonSpec` | `Canon` | `CanonIdem`, `CanonOrbit`, `CanonShape` | `PropertiesOrbit`, `PropertiesShape` |
| resuming | `StratOrderSpec` | `StratSolve` | `StratResume` | `PropertiesResume` |
| large patterns | `StratSpec`, `StratOrderSpec` | `StratSolve` | `StratDual` | `PropertiesDual` |
| text formats | `ParseSpec`, `FormatSpec` | `Parse` | `FormatRel` | `PropertiesFormats` |
| symmetries of patterns | (C99, C100) | `TieSpec` | `TieProofs` | `PropertiesTies` |
| depth of the search | (C101) | `DepthSpec` | `DepthProofs` | `PropertiesDepth` |
| small functions left out elsewhere | (C38, C40, C43, C67) | | `RestProofs` | `PropertiesRest` |

`Samples`, `StratSamples`, `ShowSamples`, `StratCallsSamples` and `WipSamples` hold the concrete grids used by the `Example`s next to the theorems. A `Properties*` file
contains only theorem statements, `Proof. exact lemma. Qed.`, `Print Assumptions`, and examples.

## Modelling conventions

* A grid is a `list nat` of length 81 with entries 0..9 (`wf_grid`), in the crate's cell order (row major).
* A `u16`/`u32`/`u128` mask is an `N`; Rust's `a & !x` is `N.ldiff a x`. Where wrapping matters (`!m + 1` in bit
  iteration) the width is modelled explicitly.
* A Rust panic (index out of bounds, failed `unwrap`, `assert!`, `debug_assert!`, `unimplemented!`) is the explicit value
  `Panic`. `Err(Unsolvable)` is `Unsolv`. A loop without structural bound takes fuel and yields `NoFuel` when it runs out;
  theorems show that neither `Panic` nor `NoFuel` is reachable from the public entry points (C04, C18, C24, C33, C38).
* With the feature `unchecked_indexing` an out-of-bounds index would be undefined behaviour instead of a panic; the same
  theorems cover that build.
* Mutation of `&mut self` is state passing. Functions of the strategy solver that fail keep the changes made so far; they
  return the state together with a success flag.
* Random number generators are arbitrary: every theorem quantifies over all results the generator may produce
  (any permutation for a shuffle, any value in range for `gen_range`). No statement about distributions is made, except
  C55, which shows that the random choices correspond one to one to symmetries.
* Counters that cannot overflow (bounded by 81, 729 or the caller's limit) are natural numbers. The `u16` indices of the
  strategy solver are modelled with their overflow (`as u16` truncation); C68 shows that it does not happen for solvable grids.

## Properties

"Proved" is for all inputs of the type unless a domain is named.

Solver (`PropertiesSolver`)
* C01, C02, C03, C05, C06, C07, C08, C10, C45: invariant of the search: every completion contained in the candidate masks
  of a node is reported by exactly one leaf below it, and at a leaf the masks form a solved grid. Induction on the fuel of
  the recursion and on the passes of the propagation loop.
* C04: bounds-checked accessors and fuel; decreasing measure (candidates left, stale subbands).
* C09 **partial**: the exit for fewer than 8 digits is proved by exchanging two absent digits in a solution. The exit for
  fewer than 17 clues rests on McGuire et al. (about 7 million core hours); that statement is an explicit hypothesis of
  `C09_solution_complete_partial`. `C09_solution_complete_17_clues_partial` has no such hypothesis: it covers all puzzles
  with at least 17 clues.
* C11, C12: induction over the 81 cells, pigeonhole for "exactly once".
* C44: complete sweeps over the table indices against `TableSpec` (finite domain, entirely covered).

Bit sets and positions (`PropertiesSets`)
* C41, C42: extensionality of `N.testbit`; all values of all six set types.
* C43: complete sweeps over the 81 cells, 27 houses, 54 minilines, 6 chutes.
* C50 **refuted in part**: without debug assertions `Cell::new` and its siblings accept out-of-range numbers.

Parsing (`PropertiesParse`)
* C13-C18, C20, C21, C22, C51: parsers work on lists of code points, `ParseSpec` describes the formats as sets of texts;
  both directions (accepted iff in the format) and every error value are proved by induction over the text.
* C19 **refuted**: `NotEnoughRows` reports one row more than was read (`C19_not_enough_rows_off_by_one` for every text).

Making puzzles (`PropertiesSym`, `PropertiesGen`)
* C25-C27: removal loop over an arbitrary order; monotonicity of the set of completions in the clues.
* C28 **refuted in part**: a source without solution can come back changed; sources with several solutions do not.
* C23, C24, C52: invariant of the generator state (every completion compatible with the guesses is contained in the
  candidates), search bounded by the size of the search tree; C52: some sequence of random results produces any grid.
* C53: composition of the above; for `generate` and `generate_from` also stated without the model's symmetries
  (`DefaultProofs`). C54 **refuted**: with a symmetry other than `None` single clues can be redundant.

Shuffle and canonical form (`PropertiesCanon`)
* C29, C30, C55: transformations as permutations of cells and digits; the generated family is the whole group.
* C32-C34: the search keeps every minimal first band; lexicographic minimum over all 3359232 cell symmetries and 9!
  relabellings without enumerating them; the automorphism count is the number of symmetries fixing the grid.
* C31 **refuted in part**: holds for solved grids (there `canonicalized` even decides equivalence) and for puzzles whose
  solution has no non-trivial automorphism; false for other puzzles.

Strategy solver (`PropertiesStrat`)
* C35, C36, C37, C40: invariants over the three lazily updated caches (candidates, placed digits, positions) and over the
  history of entries, eliminations and deductions; soundness of each search separately; for every solver state reachable
  with the public functions (`api` of `StratUse`).
* C38, C56: loop bounded by 729 candidates; the only panic is the unfinished strategy `AvoidableRectangles`.
* C39 **refuted in part**: with `[NakedSingles]` first, a naked single can remain; hidden singles never remain.
* C46 **refuted in part**: candidates of a puzzle with a cell without candidates are not the ones left by the clues.
* C47 **refuted**: `insert_candidate` accepts some conflicting digits; `C47_insert_exact` gives the exact condition.
* C48 **refuted in part**: `is_solved` is false before `solve`, even for solved input.
* C49 **refuted**: the mutant fish strategies never deduce anything.
* C57 **refuted in part**: when `solve` gives up on a solvable grid, no strategy of the list applies any more; proved without
  a bound. False of a list of one strategy (`_refuted`), and of `NakedSingles` as first strategy (C39).
* C68: the lists of entries and eliminations fit the `u16` counters. A full search may eliminate the same candidate several
  times. `StratLog` shows that no instance of a pattern is logged twice; `StratFibre` bounds the instances that can remove
  a candidate, given a solution (81 for locked candidates, fish and wings; 35 for each pair of cells of a house for
  subsets); `StratCount` adds this up over all searches: at most 60507 eliminations. The guess of the source, 2^8, is
  refuted.
* C58: `StratWhy` defines when a deduction follows from what was known before it, for each kind of deduction, without the
  solver's caches; the history invariant carries the justification through all searches; soundness of justified lists is
  proved from the definition alone by counting (`StratCertify`).

Texts with candidates and looking at solvers (`PropertiesShow`)
* C59: complete sweep over the 521 cell states, every width. C60: `ShowSpec` describes the table line by line from the
  words of the cells; both printers equal it; reading goes through the words of the text.
* C61: the cache update that `Display` uses does not stop at a contradiction; it is total for every solver (`ShowStrat`),
  and equals the checked update if there is a solution, so that the results about C46 apply.
* C62: totality of the cache updates without assuming a solution.
* C63 **refuted**: `cell_state` uses up the entries in which naked singles would be found; witness.
* C64 **refuted in part**: a word with a plus sign panics; every other text is read as described.

Any calls on a strategy solver (`PropertiesCalls`)
* C69 **refuted in part**: `cell_state` drops a contradiction that its cache update finds, after which `solve` can return
  `Ok` with an invalid grid; witness. True as long as the inserted digits have a completion.
* C70: `calls` of `StratCallsSpec` admits every public call in every order. `StratTotal` follows the cache updates without
  assuming consistency (an update that stops early leaves the caches behind but in range); `StratSearch` shows that the
  deductions found from any caches can be read back; `StratNever` bounds the main loop.

Parse errors (`PropertiesErrors`)
* C65: `BlockErrSpec` says which problem a text has where, and which of them comes first; `BlockErr` follows the parser
  through the text. C66: consequence of C65 and C14 and of the geometry of C43.
* C67 **refuted in part**: messages determine the error value; but "found {0}" prints the row index instead of the number
  of entries, and "in line {0}" does not count separator lines.

Unfinished searches (`PropertiesWip`)
* C71: the four nested loops are one fold over the rectangles; soundness swaps the two digits at the corners of the
  solution, which gives a second solution with the same clues.
* C72 **refuted in part**: induction over the subsets of the cells of a house; the search indexes the table of 8 sizes
  with 8 before it returns, for all inputs.
* C73 **refuted in part**: the `continue` after the link inside a cell with two candidates skips its houses; witness.

Relations between parts (`PropertiesRelate`)
* C09 (continued): the full statement is proved equivalent to the theorem on 17 clues; a puzzle for which it fails must have
  8 to 16 clues, 8 digits, and no two empty lines in a band or stack (they could be exchanged).
* C20 (continued): the text of a grid in blocks, character by character.
* C74, C75: by C55 random choices and symmetries correspond one to one; the symmetries that map a grid to a given equivalent
  one correspond to its automorphisms, so that all fibres have the same size.
* C76: by C58 every deduction of the first run is justified by a pattern. With more digits and fewer candidates this pattern
  is still there or has turned into a smaller one (`turns_into`), and by C57 the second run has exhausted these. Induction
  over the first run. The condition `covers` is needed: `C76_any_order_refuted`.
* C77: both sides are exact (C01-C08, C36, C37). C78: exactness again, and symmetries map solutions to solutions.
* C79: a symmetry moves every pattern of a strategy to a pattern of the same strategy (`move_fires`). The result of the
  second run is pulled back along the symmetry, and then the induction of C76 over the first run applies; the other direction
  is the same for the inverse symmetry. The documentation claims it without a condition on the list; `C79_any_list_refuted` has a
  puzzle that naked singles, hidden singles and locked candidates solve, but not when it is transposed.
* C80: the word has no border, so that pieces without it are found again; then exactness of the permissive parser (C51) and of
  `some_solution` (C07), for every board by induction. Numbers have one decimal notation (`notation_unique`).
* C81 **refuted in part**: exactness of the parsers (C13, C17) and of `solution` (C08, C09) gives the output for every text. But
  `examples/example.rs` panics on its own literal: a block with bars must have lines of dashes too (`C81_bars_need_dashes`).
* C82: without a list of all grids. An automorphism is determined by transposition and by where it takes three rows and three
  columns (`key_inj`). Those that move the first band to the same place (6 cases) correspond to those that keep it. Of these there
  are at most 108: either some automorphism only rotates columns within stacks; then the first band consists of three rows of
  the first block written in each block, a Latin square of order 3, which forces the permutations of rows and of stacks to
  have the same parity (`even_keys`); or there is none, and the permutation of the first three columns is known up to its parity.
* C83: a quarter turn is transposition and reversal of the columns; every symmetry is drawn for some choice (C55).
* C84: given a symmetric puzzle that loses uniqueness with each class, take its solution as the filled grid (C52) and an order that
  visits the empty classes first. Each of these can be removed, because the puzzle itself is contained in what is left; after
  that no class can be removed any more.
* C85: if the result is the source, the source is what the loop holds all the time, so each class is tested against the source
  itself; conversely a loop whose tests all fail changes nothing.
* C86: the lower limits hold for every uniquely solvable puzzle (C09). A clue that the other clues of its house determine, or
  the eight other clues of its digit, could be removed, so a minimal puzzle (C84) has no such clue.
* C87: the induction of C76 needs of the first run only that its deductions are justified by patterns (C58), so it applies to any
  list of deductions; the run itself is such a list, which gives the other directions.
* C88: the solutions are sorted by their digit in the cell; the counts are exact (C05).
* C89: every digit of the returned grid is in every solution (C37), and the clues are kept.
* C90: for a canonical solution the first candidate examined is the identity; the search replaces its best
  candidate only by a strictly smaller one, of which there is none.
* C91: two transformations to the canonical solution differ by a symmetry of it (C31, C32); the number is that of
  an orbit under the group of these symmetries.
* C92, C93: as for C76, every deduction of one run holds in the final state of the other; what a run starts with only has
  to be among what the other one ends with. Found on the way: `[NakedSingles, HiddenSingles]` can give up a puzzle and
  then solve the grid that it returned.
* C94, C95: the solution assigns the open cells of a house to its missing digits one to one; if n cells have only n
  digits, it assigns the other cells to the other digits, so these other digits have no place outside the other cells.
  The same for the lines of a fish. With C57 nothing larger than four is left when the solver gives up.
* C96: a grid that is not smaller than its images under a symmetry is smaller at the first difference; exchanged rows,
  bands and columns give the claims one by one.
* C97, C98: from the descriptions of what the parsers accept and report (C13, C14, C17, C51, C65); the written text of a
  grid is shown to be in the format. The differences of the parsers are shown by texts.
* C99, C100: the loop over the cells is followed step by step for a grid and its image, with C78 for the solver. The group of
  the board has eight elements; its products and the classes of the 81 cells are computed (finite domains: 8 x 8 maps, 10
  symmetries, 81 cells) and lifted to all grids. That a reduction first with the finer symmetry is final follows from C26 and C85.
* C101: the number of unsolved cells never grows in a branch, and by the invariant of propagation (`put_solved`) the cell that
  was guessed is solved when propagation ends. The fuel of the model's `guess` is its depth of recursion, so the theorem says
  that a smaller fuel gives the same results.

## What is modelled and what is not

Modelled, from `/repo/src`: `solver.rs`; `bitset.rs`; `board/positions.rs`, `board/digit.rs`, `board/candidate.rs`,
`board/cell_state.rs`, `board/grid_state.rs`; `board/sudoku.rs` (solving, parsing, printing, serde, generation, shuffle,
canonicalisation, iteration, comparison); `board/canonicalization.rs`; `generator.rs`; the array types of `helper.rs`;
`strategy/solver.rs` (all that a public function can reach, and `from_grid_state_str`), `strategy/strategies.rs`,
`strategy/strategies/*.rs`, `strategy/deduction.rs`; `errors.rs` (error values, positions, messages).

The programs `examples/example.rs` and `examples/project_euler.rs` with the text they read as argument.

Also the functions that no public function reaches yet: `strategies/avoidable_rectangles.rs`,
`strategies/almost_locked_sets.rs` and `strategy/utils.rs` (`Wip`).

Not modelled: the commented-out singles chains; the `rand` and `serde` crates; `benches`, tests.

Simplifications, besides the conventions above:
* `shuffle` and the generator draw from an arbitrary oracle instead of a `rand` generator.
* The hash maps of `strategy/utils.rs` are association lists; a callback is a function on an explicit state.
* serde formats are abstracted to "a string" (human readable) or "a byte string".
* `str::lines` follows the current standard library (`\n`, optional `\r` before it).
* `StrategySolver::cell_state` ignores an error of the cache update. The theorems of `PropertiesStrat` start from `api`,
  which leaves out calls of `cell_state` on grids with a blocked cell; C69 and C70 are about all calls.

## Trusted base

* The Coq 8.16.1 kernel, including `vm_compute` (no `native_compute`).
* `Print Assumptions` says **"Closed under the global context"** for every theorem in the `Properties*` files: no axioms,
  neither own nor of the standard library. (Loading the standard library's ssreflect support makes `coqchk` list the
  seven constants `Coq.ssr.ssrunder.Under_rel.*`; no theorem depends on them.)
* The hypothesis about 17 clues in `C09_solution_complete_partial` is part of that theorem's statement, not an axiom.
* The hand translation of the Rust sources into Gallina, cited by file and lines at every definition.
* The Rust compiler, standard library and the `rand`/`serde` crates behave as documented.

# Formal model of UCL-ARC/householder in Rocq (Coq 8.16)

The model is a set of total, executable Gallina functions, one per Rust function, under `rocq/theories`. The properties
of `properties.jsonl` are theorems about them, for all inputs, states and histories. `MANIFEST.json` maps each property
to its theorems.

## 1. Files

Model (every definition cites the file and lines it models):

| file | models |
|------|--------|
| `Machine.v` | `usize` arithmetic (64 bit) with overflow in both build profiles, panics, undefined behaviour |
| `F64.v` | the binary64 computation inside `UpperTriangular::convert_1d_2d` (the standard library's executable `SpecFloat`) |
| `Layouts.v` | all nine layouts of `src/layouts`, every `LayoutType` and `BaseLayoutType` method |
| `Memory.v` | allocations, pointers with provenance, the four data containers, `get_slice` and `get_slice_mut` |
| `Matrix.v` | `BaseMatrix`, `Matrix`, `MatrixRef(Mut)`, `ScalarMult`, `Addition`, random access, `for_each`, `eval`, constructors and macros, `from_pointer`, `block(_mut)`, `split_in_four_mut`, random fill |
| `MatMul.v` | `matmul` (real and complex), `dot` |
| `Program.v` | a state machine that executes histories of API calls on a table of matrices |
| `Borrow.v` | the ownership rules of Rust for such histories: loans by the lifetimes in the signatures, moves, drops |
| `Dealloc.v` | the same histories with destructors: what is dropped, ends its scope or is lost in a panic frees its memory |
| `Threads.v` | several threads with tables of their own on one memory: schedules of API calls; also the vocabulary of C55 and C56 |
| `Interleave.v` | every method again as a sequence of single loads, stores and allocations, and a machine that interleaves those of many threads; also the vocabulary of C60 and C61 |
| `Flat.v` | one array of bytes, addresses, an allocator that may hand out freed memory again, and the programs of `Interleave.v` with the destructors of `Dealloc.v` on them; also the vocabulary of C70 and C72 |
| `FlatThreads.v` | many threads on the bytes of `Flat.v` with one allocator, switching after every access; also the vocabulary of C74 |
| `OutOfMemory.v` | the blocks that histories and threads ask the allocator for; also the vocabulary of C75 |
| `FlatDrops.v` | the threads of `FlatThreads.v` with destructors, and one thread alone with destructors; also the vocabulary of C76 |
| `FlatPrograms.v` | programs of `Dealloc.v` as threads of `FlatDrops.v`; also the vocabulary of C77 |
| `FlatScopes.v` | programs that hand matrices to threads, the numbers of the matrices of a thread, what may be handed over; also the vocabulary of C78 |
| `FlatJoins.v` | the first program after its threads have ended: its matrices with the bytes they leave; vocabulary of C79 |
| `FlatRounds.v` | programs that go on alone and with threads in turn, any number of times; vocabulary of C80 |
| `Stacked.v` | the rules of Stacked Borrows for one memory cell, and the histories of `Borrow.v` with the references they make and use; also the vocabulary of C71 |
| `RepairedHistory.v` | not a model of the code: the machine of `Program.v` with `stride` as a parameter; the histories of C62 |
| `Guarded.v` | not a model of the code: that machine with four checks added, for C63 |
| `Floats.v` | the scalar types f32, f64, c32 and c64 in IEEE-754 arithmetic |
| `TestSuite.v` | the product tests of `src/matrix_multiply.rs` and their reference implementation, for any size |
| `Corrected.v` | not in the library: the functions that C02, C04, C07, C14, C15, C26 and C41 find wrong, with one change each (C73) |
| `Documentation.v` | the code blocks of the documentation in `src/examples.rs`, for any size, position and number; also the vocabulary of C65 |
| `Types.v` | the types and method signatures of the library without run-time values, and type checking of histories; also the vocabulary of C66 |
| `Generic.v` | the generic code again for any implementation of the traits `LayoutType`, `BaseLayoutType`, `DataContainer`, `DataContainerMut`, `UnsafeRandomAccess` and `UnsafeRandomAccessMut`, and the crate's own implementations as instances |
| `ZScalar.v` | integers and pairs of integers as scalars, used by the examples |

Specification (small, independent of the model's helpers, read these with the theorems):

| file | says |
|------|------|
| `Spec.v` | positions, traversal order, strides, what a layout ought to compute |
| `MatrixSpec.v` | regions, cells, entries of a matrix, what a write may change, windows and quarters, disjointness |
| `ExprSpec.v` | the algebraic value of an expression, visits in order, streams of samples |
| `ProductSpec.v` | the entries of a product, compatible dimensions, overlap |
| `AlgebraSpec.v` | nested computations, their value, the laws of matrix algebra |
| `BlockedSpec.v` | a user's loop that computes a product block by block, and what it ought to do |
| `AdmitSpec.v` | when the ownership rules must refuse a call, and which calls only read |
| `Repaired.v` | not a model of the code: the callers of `stride` with that function as a parameter, and the repaired `stride` |
| `SliceSpec.v` | what a slice of the storage ought to show |
| `HistorySpec.v` | safe calls, contracts of unsafe calls, allocations a matrix lives in, calls that compute no size beyond 2^64 - 1 |
| `GenericSpec.v` | the contracts an implementation of the traits has to meet |
| `AccuracySpec.v` | exact numbers, the precision of the scalar types, formulas and their error bounds, what a gemm routine may do |
| `TraceSpec.v` | the list of the loads, stores and allocations of a program, and what it should be |
| `Abstract.v` | abstract matrices and a second machine that executes the same calls on them |

Proofs: `*Facts.v`, `*Proofs.v`, `*Safety.v`, `FlatHistory.v` and `FlatProducts.v`. Theorems: `Properties_*.v`. These contain the statement of each
property theorem, a concrete `Example` that meets its hypotheses, and `Print Assumptions`.

## 2. Modelling decisions

* **Outcome.** Every operation returns `Ok v`, `Panic` or `UB`. `UB` stands for an access, slice or in-bounds pointer
  step outside the memory region a pointer was derived from. `Panic` covers failed assertions, division by zero,
  `unimplemented!`, capacity overflow and, in overflow-checked builds, arithmetic overflow.
* **Build profile.** Arithmetic takes a `mode`: `Checked` (overflow-checks on: debug) panics on overflow,
  `Wrapping` (release) wraps modulo 2^64. Theorems quantify over the mode unless the behaviour differs.
* **Memory.** A heap is a list of allocations (lists of scalars). A container is a range of an allocation. Views
  (slice containers, blocks) are ranges of their parent's allocation, so aliasing is visible in the model.
* **Scalars** are an arbitrary type with arbitrary `add`, `mul`, `zero`, `one` and size: no algebraic law is assumed, so
  the theorems hold for floating point arithmetic whatever its rounding. Theorems that need more say so.
* **gemm** (external crate `matrixmultiply`) is an arbitrary kernel: a function of the sizes, alpha, beta and the data
  that gives each new entry of C. The model makes the reads and writes at the strides the code passes. Theorems with
  `_exact` in their name instantiate it with the documented formula.
* **Random numbers**: an arbitrary generator `sample : G -> R * G`.
* **Closures** passed to `for_each` are arbitrary state transformers that may panic at any call.
* **Ownership** (C48 to C51): a use of a matrix ends the loans it conflicts with, and what borrows from an ended matrix
  has ended. This is a dynamic form of the aliasing rules at the granularity of whole matrices.
* **Freed memory** (C54): `Dealloc.v` empties a freed allocation, so that every later access is `UB`, and freeing it again
  is `UB`. The other files keep allocations for ever; C54 proves that this makes no difference without raw pointers.
* **Addresses** (C70): in `Flat.v` memory is one array of bytes and every access is possible, so nothing but the proof
  keeps a pointer within its allocation. The gemm routine is any that accesses only entries of its arguments; the
  hypothesis `plain_products` says that no product of the history has an entry of C that is one of A or B; `C70_products` proves it for safe
  histories without `split_in_four_mut`, and `C70_split_needed` refutes it with it.
* **Accesses** (C72): `process_visits` lists the address of every load and store with the blocks in use at that time. The stores that
  fill a new block are part of the allocation. C72_loads and C72_stores say that the list leaves out none.
* **Threads on the bytes** (C74): `FlatThreads.v` has one memory and one list of blocks in use for all threads. Each thread has its own
  sequence of addresses where the allocator puts its memory; a request that meets a block in use ends in `NoMemory`. When a call
  panics its blocks leave the list. Threads drop no matrices; see C76.
* **Lack of memory** (C75): `OutOfMemory.v` lists the blocks that a run asks for, with the state of the memory at that time. Whether the
  allocator has them is decided by `grants` of `Flat.v`; C75 says what that means in terms of bytes and the address space.
* **Threads that free** (C76): in `FlatDrops.v` a thread also runs destructors, as steps of its own (drops and ends of scope) and when a
  call that took a matrix by value does not return one. A destructor that frees a block not in use is `Undefined`. `alone_run` is one
  thread with a memory in which the allocations of the others are empty; it has no borrow checker: a thread may name a matrix that it
  moved or destroyed, and the theorems assume only that this is defined when it runs alone. `owned_apart` says which thread owns what
  at the start. C77 derives all this for safe programs that begin with nothing, C78 for threads
  that are handed matrices by a safe program, by value or as references, and go on as that program could. The first program does not go on before
  the threads end (as a thread of its own it can). C79 says what it finds then, and that it can go on: `FlatJoins.v` gives its process
  the bytes and blocks that the threads leave, and a new log for the allocator, which only numbers the choices to come.
  C80 is for any number of such rounds (`FlatRounds.v`): the relation `rounds` pairs the states with names for allocations and the
  processes with bytes that programs reach.
* **Aliasing rules** (C71): in `Stacked.v` every container is reached with a tag, and the events of a call are read off the source:
  which references it makes and in what order. A call reaches its containers as a whole, like `as_ptr` and indexing of a slice do.
  The proofs are about strict rules, in which a write removes all items above its own; C71_rules and C71_rules_split take the results
  to the rules of the paper; C71_exclusive and C71_read_only say what those forbid. C71_held, C71_accesses, C71_makes and C71_frees say that the events leave out no operand, no changed
  cell, no new slice and no freed memory, and C71_reads that a call depends on no cell that it does not access. Tags that are made and used within one call are left out where this makes no difference.
* **Threads** (C55, C56, C60, C61): the crate starts none, but its matrices are `Send` and `Sync` (vectors, arrays and references), so
  callers can. In `Threads.v` a call is one step of a schedule. In `Interleave.v` (C60, C61) a step is one load, store or
  allocation; C60_sequential ties these programs to the functions of the other files. There gemm is any routine that
  accesses only entries of its arguments and leaves in C what the kernel says. Each thread sees the common memory
  followed by what it allocated itself.
* **Types.** Rust's static typing (which layouts and size types a method exists for) is modelled by explicit
  side conditions in `Program.v` (`*_typed`): a call that would not compile is skipped.

## 3. Not modelled

* The borrow checker's static analysis. `Program.v` lets any matrix be used at any time. `Borrow.v` admits the histories
  in which no value is used after its loans have ended; every run of a program that compiles is one.
* Allocation failure below `isize::MAX` bytes, except in `Flat.v`, where the run ends. An array that is moved
  keeps its address.
* User-written implementations of the crate's traits, except in C67; there, implementations with interior mutability
  (whose answers change between calls) are left out.
* Panic messages; unwinding (after a panic the history goes on with the state at the panic).
* `matrixmultiply` internals and the sampling algorithm of `rand_distr`.
* `src/matrix/vector_impl.rs` (not in the crate's module tree), `src/lib.rs`, `src/global.rs`, `src/matrix.rs`
  (re-exports), `src/traits/*` (trait declarations only; their implementations are modelled).
* References to the `Matrix` structures themselves and protectors (the promise that a reference stays valid for the whole call)
  in C71, and that moving an array invalidates pointers into it.
* `HScalar::atan2` (`src/types.rs`): no other code calls it.
* Memory orderings and torn accesses: the interleavings of C60 are sequentially consistent (C60_races shows that there
  are no races, and for programs without races Rust guarantees sequential consistency).
* The debug assertions of `matrixmultiply` that C has no zero stride along a dimension above 1.

## 4. Properties: how each is proved, and the outcome

"refuted" means that the code violates the property as stated. A theorem with suffix `_refuted` gives the witness, and a
theorem with suffix `_partial` the largest part that holds.

| id | method | outcome |
|----|--------|---------|
| C01 | arithmetic of division and remainder | proved |
| C02 | round trip by case analysis | coordinates refuted: (1,i) and (i,1) instead of (0,i) and (i,0); round trip proved |
| C03 | triangular numbers | proved where the storage can be allocated, huge n refuted |
| C04 | error analysis of the four rounded operations with Flocq | holds if and only if n < 2^27, both directions proved |
| C05 | case analysis on layouts | proved |
| C06 | case analysis on layouts | dense and vector proved, strided matrices refuted: `stride()` returns the dense strides |
| C07 | case analysis on layouts | proved except upper triangular, refuted there |
| C08 | from C01 and C03 | proved |
| C09 | memory lemmas, induction on expressions | proved |
| C10 | address arithmetic | dense, vector, triangular proved; user strides: exact outcome of every access and an exact criterion; refuted: `from_data` does not check them |
| C11 | induction over histories of writes | proved |
| C12 | memory lemmas | proved |
| C13 | unfolding constructors | proved where the storage can be allocated; release build refuted for wrapped sizes, and characterised for all sizes (`C13_release_exact_partial`) |
| C14 | unfolding constructors | proved except `ColumnVector::from_dimension`, refuted: it checks the wrong component |
| C15 | case analysis on the instances; an invariant over histories | constructors proved, and for whole histories: sizes are right exactly if every `from_data` got a layout of the stated size; `from_data` refuted: it ignores the size types |
| C16 | list lemmas | proved |
| C17, C18 | address arithmetic | proved |
| C19 | address arithmetic | refuted; exact characterisation of the pairs for which it holds |
| C20 | address arithmetic | overflow-checked: exact outcome of every request, empty ones included; release build: empty and representable requests; empty blocks and wrapped requests refuted |
| C21, C22 | address arithmetic, induction over histories | proved |
| C23 | address arithmetic | refuted except for 2 x n matrices split after the first row (exact) |
| C24 | address arithmetic | proved with overflow checks or without wrap; release wrap refuted, exact outcome for all requests in `C24_release_exact_partial` |
| C25, C27, C28, C29 | induction on expression trees | proved |
| C26 | loop invariant | proved except dynamic column vectors, refuted: `eval` panics |
| C30, C31 | loop invariants over arbitrary closures and generators | proved |
| C32, C42 | loop invariants over the gemm loops | proved |
| C33, C34, C36 | the same | proved for operands whose reported strides are true; C34 for blocks of any width: what is computed instead, and for every narrower block contents with a wrong product |
| C35 | the same | overflow-checked proved; release refuted for wrapped result sizes, exactly when in `C35_release_exact_partial` |
| C37 | every operation is monotone in the mode | proved for all calls and histories |
| C38 | invariant over histories | undefined behaviour exactly for empty blocks that start beyond the container (both directions proved); these refute it |
| C39 | invariant over histories | refuted; proved if no number of entries and no end of a block exceeds 2^64 - 1, blocks are non-empty and splits interior |
| C40 | invariant over histories | proved |
| C41 | unfolding; with the invariant of C15 for histories | `Matrix::length` proved for vectors; `BaseMatrix::length` refuted |
| C43 | simulation of the abstract machine, induction over histories; triangular matrices, containers of any size and slices of whole matrices included | proved in scope, four witnesses out of scope |
| C44 | address arithmetic | proved |
| C45 | the invariant of C38, with contracts for the unsafe calls | proved |
| C46 | every operation on operands in memory gives the same in both modes | proved |
| C47 | loop invariants of the reference implementation, ring laws, equality of heaps | proved over exact arithmetic |
| C48, C49 | invariant over histories: loans form chains, cells shared with a writable matrix follow them | proved without `split_in_four_mut`, and with it if the parts are used entry by entry; three witnesses otherwise |
| C50 | invariant over histories | proved |
| C51 | from the invariant of C48 and C32 | proved in the scope of C48, one witness outside |
| C52 | induction on computations and on derivations of laws | proved; the laws over exact arithmetic only (for floating point see C64) |
| C53 | address arithmetic; contents that tell two cells apart | layouts without strides proved; with strides exactly if the entries lie one after the other; narrow blocks refuted |
| C54 | simulation between the machine that frees memory and the one that does not; invariant: one owner or freed | proved; raw pointers excluded (witness) |
| C55 | simulation under renaming of allocations: each thread in the common memory, and alone; by induction on the schedule | proved; needs disjoint containers, which ownership provides without splits (witness for splits) |
| C56 | the same simulation with the cells of entries in place of whole containers; `careful` excludes slices, blocks of several rows and products of quarters; composed with the ownership invariant of C48 | partial: the code violates it for those calls (three witnesses, two schedules with different results each) |
| C57 | user loop over block steps, induction on the list with C34 for each step; masked sums over the inner dimension | partial: proved for blocks whose entries are consecutive (panels, single rows or columns); witness with square blocks |
| C58 | callers of `stride` with the function as parameter, equal to the model for the present `stride`; proofs of C06, C19, C34, C57 redone with the repaired one | proved |
| C59 | invariant of histories (lenders of usable matrices are usable and older); exact effect of one use by induction on the table | proved, about the signatures (`uses`, `returned` of `Borrow.v`) |
| C60 | each call as a program of accesses, proved equal to the function when it runs alone; invariant of the interleaved machine: what a program may read is as in its own run; a step changes only the cell that the races are about (`C60_writes`) | proved; needs disjoint containers (witness for splits) and products without aliasing (witness; C60_plain says which) |
| C61 | footprints of the programs of C60 by entries (address lemmas of C09, strides of C58) in place of containers; the machine invariant of C60 with them; start states from the ownership invariant as in C56 | partial: the code violates it for slices, blocks of several rows and products of quarters (three reachable races); proved for all other calls |
| C62 | the machine of `Program` with `stride` as a parameter, equal to the model for the present `stride`; the simulation of C43 with the blocks and products of C58 | proved |
| C63 | the machine of C62 with four assertions added in the constructors, `block` and `split_in_four_mut`; an invariant over histories that speaks of any strides that keep entries apart | proved |
| C64 | the instances f32, f64, c32, c64 of the scalars on the standard library's `SpecFloat` (canonical results, commutativity and the factor one proved without real numbers); nested computations with any gemm routine | proved |
| C65 | each code block as a function of its sizes, positions and numbers; composition of the lemmas of C09, C13, C17, C20, C22, C25, C26, C31, C35 | proved; blocks are non-empty and sizes do not wrap (otherwise C20) |
| C66 | types and signatures as functions without run-time values, compared call by call with the run-time checks of `exec`; induction over histories | proved; lifetimes are C48 to C59 |
| C67 | the methods of a trait as parameters of the code, the contract as laws about them; induction over expressions, loops by invariants; with the crate's instances the definitions equal those of `Matrix.v` and `MatMul.v` | proved; the contract is needed, with a witness |
| C68 | error of each operation of `Floats.v` by Flocq; formulas for any order of operations, induction over them; the gemm routine is any that computes a formula; induction over computations and expressions, on top of C25, C32 and C64 | proved; the bound cannot be relative to the exact result, with a witness |
| C69 | the list of accesses of the programs of `Interleave.v`, which C60 proves equal to the functions; induction over expressions, loops and programs | proved |
| C70 | simulation between names and addresses: programs on the heap of `Memory.v` and on the bytes, with a map from allocations to addresses that grows; induction over programs, calls and histories | proved |
| C71 | stack of one cell: invariant that the tag of every matrix that may be used is in it and that what lies above is ended by the uses that remove it; induction over histories; for a split, the stack it leaves | partial: false for splits of more than two rows, with a witness and the exact condition for each part; proved for all other histories |
| C72 | every program of a call is sound where it is related to one on the heap: its loads and stores are at items of blocks; carried along the simulation of C70, with an invariant on the addresses of blocks; for completeness of the list, induction over programs that differ in bytes not visited | proved |
| C73 | callers of the changed functions with the function as parameter, equal to the model for the present ones; the integer root by the bounds of `N.sqrt`; the proofs of C04 and C26 redone | proved |
| C74 | each call keeps to its operands and what it allocates; invariant of the machine: blocks of different threads have no common byte, and each thread sees in the bytes it can reach what it would see alone, where C70's simulation applies; start states from C55 and C70 | proved; needs disjoint containers (witness for splits) |
| C75 | induction over programs, histories and schedules; a run depends on the allocator's choices in the order in which it makes them, so an allocator that always goes on to higher addresses can be built along the run | proved |
| C76 | invariant of the machine: the blocks in use are the common ones and those of each thread, without a common byte; a thread may hold pointers to blocks it once owned, but C70's simulation shows that it accesses only those it owns now; destructors give back blocks of the thread itself, and a step frees, writes and reads nothing but what the races are about (`C76_frees`, `C76_writes`, `C76_reads`); counting for the end | proved; needs owners that do not overlap (witness) |
| C77 | a program that is admitted does in `Dealloc.v` what its calls and destructors do in `FlatDrops.v` (induction); then C54, C70 and C76 from the empty memory | proved; needs the borrow checker (witness) |
| C78 | renaming of matrices: a continuation of the first program and the thread do the same (induction); hiding the memory that other threads own changes nothing for matrices outside it (induction); then C54, C70, C74 and C76. `C78_hands`: from the ownership invariant of C54 | proved; needs that no two threads get what one owns (witness) |
| C79 | invariant of C76: every write is inside a writable matrix handed out or in memory that only that thread uses, so other bytes keep their values (induction over schedules); a thread never changes its table, so what it was handed stays in its place; then the bytes represent the state of the first program with other items, whose invariants (C54, C70) do not mention items; matrices moved to threads are taken out of that state as if destroyed, and the blocks left are those of the rest (C78) | proved; the part on going on asks that the threads free what they make and what was moved to them |
| C80 | induction over `rounds`, from any state with the invariants of C54 and C70 whose bytes represent it; the proofs of C78 and C79 are for such states, and a round ends in one | proved; in each round the threads free what they make and what was moved to them; `C80_ended_needed`: before all threads have ended, the bytes are of no state to go on from |

## 5. Findings about the code

1. `convert_1d_2d` of the four vector layouts returns row or column 1 instead of 0 (C02).
2. `stride()` of strided row-major and column-major layouts returns the strides of a dense matrix (C06). Products of
   block views read and write the wrong cells (C33, C34, C36, C57), and a block of a block uses the strides of the inner
   block's dimension (C19). Returning the strides of the layout in these two functions repairs all of this (C58, C62).
3. `UpperTriangular::convert_1d_2d` is wrong from n = 2^27 on (C04); the entry (0,0) is not at raw index 0 (C07).
4. `ColumnVector::from_dimension` asserts on the wrong component, so `eval` of a dynamic column vector panics unless it
   has one entry (C14, C26).
5. `from_data` checks neither strides nor the size types (C10, C15).
6. An empty block past the end of the container makes an out-of-bounds pointer step (C20, C38).
7. The four mutable blocks of `split_in_four_mut` hold overlapping exclusive slices (C23).
8. `BaseMatrix::length` of a matrix is not its number of entries (C41).
9. Without overflow checks, sizes that wrap are accepted and lead to out-of-bounds accesses (C13, C20, C24, C35, C39).
10. Safe code can break the aliasing rules with `split_in_four_mut`: a slice, a block of several rows or a product into one
    quarter writes entries of another quarter, and changes what a live read-only view of it reads (C48, C49, C51).
    Without splits no safe history does. Even reading one entry of the upper (lower) left quarter breaks the rules of Stacked
    Borrows if the quarter has two rows, since the quarter to its right is an exclusive slice with common cells (C71).
11. A slice of a block view shows, and lets one write, cells of the parent outside of the block (C53).
12. `LayoutType` and `DataContainer` are safe traits, but the unchecked accesses trust their implementations: a layout
    or container written in safe code can make `get` or `get_slice` leave the memory (C67).

Findings 1, 3, 4, 8 and the size types of 5 are repaired by one change each (C73).

Findings 2, 5, 6 and 9 are all there is to the memory safety of histories without `unsafe` calls in one thread: with
four checks and the right `stride` no such history has undefined behaviour in either build (C63). This leaves out the
aliasing rules, findings 7 and 10.

## 6. Trusted base

* Coq's kernel (`coqc`, and `coqchk` run by the check).
* The reading of the Rust source recorded in the comments of the model files, and the list in section 3.
* The specification files of section 1.
* For C04, C64 and C68: that Rust's `f32` and `f64` operations and `as` conversions are IEEE-754 binary32 and binary64 with round to nearest even, as
  computed by the standard library's `SpecFloat`. Flocq is used in proofs only.

`Print Assumptions` under every property theorem prints "Closed under the global context" except for
`C04_exact_partial`, `C04_index_partial` and the theorems of C68. These use real numbers, and depend on the axioms of
the standard library `ClassicalDedekindReals.sig_not_dec`, `ClassicalDedekindReals.sig_forall_dec`,
`FunctionalExtensionality.functional_extensionality_dep` and `Classical_Prop.classic` (in C68 only `C68_arithmetic`,
`C68_range`, `C68_fused` and `C68_relative_needed` use all four; the others the second and third).
`coqchk` lists the axioms of all loaded libraries, used or not. These are the axioms of the standard library's
`Reals` and `Logic` (loaded by Flocq) and of `ssrunder`.
There are no axioms, admitted proofs, functors or module types of our own.

## 7. Testing the theorems

`seeded/LOG.jsonl` records the wrong programs that the theorems were tested against. Each line gives the definition
edited, the edit, the claim it breaks, the theorems that failed to prove and the theorems tightened afterwards.

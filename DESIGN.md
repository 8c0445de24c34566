# Formal model of PsimagLite in Rocq: design

## 1. Shape of the development

All files are in `rocq/theories`, logical name `Verif`. For a topic `T`

* `T_Model.v`  – the Gallina model of the code. No proofs. Every definition cites file and lines of `/repo`.
* `T_Spec.v`   – (where needed) a small specification, independent of the model's helpers.
* `T_Proofs.v` – lemmas.
* `T_Props.v`  – the property theorems only: statement, `exact lemma`, `Print Assumptions`, and beside them
  `Example`s showing that non-trivial cases meet the hypotheses.

### Outcomes

`Prelude.v` defines `res A := Ok a | Throw | UB`. `Throw` is a C++ exception (or `err()`), `UB` is undefined
behaviour: out-of-range access of a `std::vector` or a raw pointer, division by zero, signed overflow, a violated
`assert` (the library is normally compiled with `NDEBUG`, so a violated assert means the code goes on with a broken
precondition).  Loops are `forM` (structural), folds, or recursion on fuel with a distinct out-of-fuel outcome which
the theorems exclude.

### Numbers

* Indices and sizes are `nat` or `N`. Overflow of `SizeType` (64 bit) is not modelled except where the property is
  about words (bit counting, Mersenne Twister, packing, RandomForTests), where the wrap-around is written out.
* Matrix and vector elements are elements of an arbitrary commutative ring with an involution (`cring`: 0, 1, +, *, -,
  conj, decidable equality and the ring laws), so the theorems hold for integers, rationals, Gaussian rationals, …
  Floating-point rounding is **not** modelled: this is the main idealisation of the numerical part.
* `std::norm(x) > 0` style tests become "x is not zero" (true in exact arithmetic).

### External code

`std::sort` is an oracle: any function whose result is a permutation of its input with sorted keys. LAPACK/BLAS are
oracles (GEMM: the mathematical product). HDF5 is modelled as a finite map from paths to values. File streams are lists
of characters or tokens. Threads are lists of steps, and theorems quantify over all interleavings.

## 2. Properties: what is modelled and how it is proved

| id | model | proof |
|----|-------|-------|
| C01, C02 | `Encode::encode_` and `Decode` as the same three-byte state machines on byte lists | induction by groups of three; bit identities on bytes by finite sweep or `N.testbit` |
| C03 | `countKernighan` with fuel, `count` with the SWAR constants on 64-bit words | induction on the number of one bits; SWAR by splitting in bytes/bit fields |
| C04 | `LoadBalancerDefault` constructor, `blockSize`, `taskNumber` | arithmetic on quotient and remainder |
| C05 | `LoadBalancerWeights` constructor with `std::sort` oracle | loop invariant; Graham's bound |
| C06 | pthread wrappers as per-thread lists of lambda calls; schedules as interleavings | merge of lists is a permutation; commuting steps |
| C07 | `Sort::sort` with oracle | permutation lemmas |
| C08 | `increase`, `largestk`, `largestl` | next-permutation theory: successor in lexicographic order |
| C09 | recursive enumeration | induction on `total` |
| C10 | `pack`/`unpack` | arithmetic |
| C11, C12, C13 | string functions on character lists with fuel | induction on the string; declarative specs |
| C14, C15 | MT state as list of 624 words in `N` | recurrence by in-place update invariant; tempering inverse |
| C16 | Schrage step with `Z` and explicit int range check | arithmetic |
| C17–C29 | CRS matrix as record of `rowptr, colind, values, nrow, ncol`; every function as written, with bounds-checked reads and writes | loop invariants; abstraction to entries `(i,j) -> ring` |
| C30, C31 | dense `Matrix` (column-major vector) | index arithmetic and sums |
| C32–C35 | `SparseVector`, `SparseRow`, `SparseRowCached` | multiset sums invariant under permutation |
| C36–C42 | geometry classes | arithmetic on `/` and `mod` |
| C43–C46 | `InputNg` parser and reader | state-machine induction |
| C47, C48 | `IoSimple::In` on list of words with a read position | induction |
| C49, C50 | serializer as a state machine over a path map plus a canary, with crash points | refinement to a map; invariant |
| C51 | bit packing | induction, `testbit` |
| C52 | level-order expression evaluator | forest induction |
| C53, C54 | predicate and canonical expression evaluators | induction on token lists |
| C55 | both Chebyshev implementations | product formula for Chebyshev polynomials |
| C56 | bisection with function as parameter over `Q`/`R` | loop invariant |
| C57 | Akima spline over `R` or a field | algebra (`field`, `lra`) |
| C58 | `TridiagonalMatrix` storage and `buildDenseMatrix` | loop invariant on the cells written |
| C59 | tile arithmetic of `GemmR`, thread schedule of the tiles, oracle GEMM on blocks | the tiles partition the cells of the result; updates of different tiles commute |
| C60 | `LanczosCore::decomposition`, `oneStepDecomposition`, re-orthogonalisation, `computeOneState`, `computeAllStatesBelow` over complex numbers (pairs of `R`); matrix product, `?stedc` and `diag` as parameters with contracts | invariant over the steps: orthonormality and three-term recurrence; when the iteration stops: two successive lowest values of the leading blocks closer than eps, or steps exhausted (`Lanczos_Proofs2.v`) |
| C61 | `operator<<`/`operator>>` of vectors, pairs, stacks on text | induction on the text read |
| C62 | `Options` | lists of words |
| C63 | `OneOperatorSpec`, `GetBraOrKet` | case analysis on the position of the special characters |
| C64 | `LinearPrediction` with `geev`/`gesv` as parameters | least-squares normal equations; recurrence by induction on the predicted points |
| C65 | vector arithmetic of `Vector.h`, with the lazy expression objects | pointwise |
| C66 | `Concurrency` settings and `CodeSectionParams` | case analysis |
| C67 | `ParametersForSolver` constructor on the `InputNg` model | the reads are followed label by label |
| C68 | `AinurState` declare/assign/readValue and `AinurMacros` | state machine; induction on the text |
| C69, C82 | `ContinuedFraction`, `ContinuedFractionCollection` over `R` with pairs | spectral decomposition = resolvent element; sums over collections |
| C70 | Mersenne Twister seeding | recurrence |
| C71, C72, C76 | further `Matrix.h`/`CrsMatrix.h` operations, aliased arguments | sums; stores with the operand updated in place |
| C73 | `exp` of a Hermitian matrix with `heev` as a parameter | eigen-decomposition |
| C74, C75, C77, C78, C81 | predicates, validity check, chunks, `SparseVector` arithmetic, `pushCol`/`pushValue` | loop invariants |
| C79, C80 | cached connectors, `LongChain` | arithmetic |
| C83 | `stringToComplex` with the formatted input of `std::stringstream` | grammar of the accepted texts |
| C84, C85 | the grammar of `AinurConvert1.cpp` as a recogniser, its actions, `AinurComplex::toComplex` | relation between texts and lists of elements, recogniser correct and unambiguous |
| C86, C87 | `oneStepDec`, `decomposition`, `computeAandB` of ChebyshevSolver, `plot` of ChebyshevSerializer | product formula for Chebyshev vectors by induction; kernels as autocorrelations (Jackson) and convex sequences (Lorentz) |
| C88 | `TridiagonalMatrix::ground` (implicit QL) over the reals, with the test for negligible elements as a parameter | invariant: an orthonormal basis in which a symmetric matrix close to the given one is the current tridiagonal matrix; plane rotations of a tridiagonal matrix with a bulge |
| C89, C90 | `fermi`, `fermiPrime`, `logfermi`; `RungeKutta::solve`, `solveEx` for vectors | case analysis at the cut-offs, derivative of 1/(1+e^x); loop invariant against the textbook scheme, then the Taylor remainder of exp |
| C91 | `AinurLexical`, the constructor of `Ainur` with its boost::spirit grammar written out as a backtracking recogniser, the actions | lemma per grammar rule about longest runs and skipping, induction over the statements; end-to-end reading by C68 |
| C92 | `AinurFunction` (constructor, `readData`, `operator()`), `getFunctionNameValue`, `valueFromFunction`; `getline` with its limit | induction over the lines of the table; uniqueness of the words of a line (C11); refuted: comma separator, lines of spaces, one column too few, lines of 2048 characters or more |
| C93 | `ApplicationInfo::runIdInternal`, `checkRunId` of the example; `atol` with the clamping of the GNU library | the stream theorem of C14, `countKernighan` (C03), decimal printing; flipping one bit changes the count by one; refuted: changed decimal digits may pass |
| C94 | `MPI::pointByPointGather`, `MPI::send`, `MPI::recv`, `send` and `recv` of `Matrix` and `CrsMatrix`: processes as programs that send and receive; sends buffered or not, messages from one process to another in order per tag | invariant: what the root still has to receive from a process is what is under way from it followed by what it still has to send; a measure that every step decreases; refuted: a root other than 0, a communicator other than all processes |
| C95 | `MPI::bcast`, `reduce`, `allReduce`, `bcast` of `Matrix` and `CrsMatrix`: `MPI_Bcast` and sums of equal counts | loop invariant over the vectors sent; refuted: complex vectors and matrices of other sizes, sums of one double |
| C96 | `ProgressIndicator`, `Profiling`: an output string stream is characters and a put position; the clock's readings are arguments | induction over the messages said; refuted: a reused stream keeps the end of a longer message, `printMemoryUsage` destroys the record and records for silent indicators, the flag `fixed` stays set |
| C97 | `MemoryUsage`: `istream::getline` with its bits, `findEntry`, `TimeHandle` with unbounded integers | induction over the lines of the file; refuted: a line of 40240 characters is read for ever, blank entries, `millis` gives seconds, `seconds` of a difference |
| C98 | `LongRange` with the term that caches its matrix; numbers are Gaussian rationals | invariant of the loops over the rows (after k rows the matrix is that of the first k); refuted: orbitals, negative sites and sites past the end are not refused, neither are matrices of another size |
| C99 | `MemResolv`: memory is a function from addresses to bytes, pointers are words of eight bytes; the address of the new block is an argument; a saved file is its fields | induction over the chunks: the correction for gaps of an address is the sum of the shrinkages before it, slices of the image are the chunks, words are relocated; then induction over the path; refuted: chunks out of order (so every vector of vectors), pointers outside, pairs, empty and huge chunks, and pointers after loading |
| C100 | the other readline and read overloads of InputNg: long, SizeType, floating, complex vectors and matrices, maps; extensionOf | on top of the invariant of C44 (what is left to be read), loops over the entries |
| C101 | `loopCreate` of PthreadsNg as a loop over thread attributes; results of system calls are arguments | loop invariant: the processors left are those of the process without as many as were given; refuted: any stack size |
| C102 | `Gin_Model.v`: the constructors of the geometry, its terms and directions on the reader of `Input_Model.v` and the lattices of `Geo_Model.v` | invariant of the reader (how often each label was used) through the constructors; the bonds of each lattice are the connected pairs, with the position of their connector; loop over the terms. Partial: one degree of freedom and no GeometryValueModifier; other kinds are a parameter. Refuted: missing connectors are not refused, nor is a periodicity that is not a number; the bond that closes a periodic chain has the first connector |
| C103 | `Crsf_Model.v`: assignment from sorted entries, checked setters, closures, `swap`, `multiply` with a target that is one of the factors | invariant over the rows with the number of entries of the rows before; refuted: setters that append, product into a factor |
| C104 | `Minim_Model.v`: the two drivers over any library that iterates, tests and has a point; the status and the number of vectors allocated | induction on the iterations left; refuted: error in the first iteration, vectors after an error, start of another size |
| C105 | `Lap_Model.v`: diag, geev, inverse, Svd over any LAPACK, whose arguments are checked as its documentation says (undefined if an array is too short); the promises of LAPACK are `lapack_ok` in `Lap_Spec.v` | computation of the two calls, elements of the arrays; refuted: shapes, room for the values of geev, Svd that has not converged, Svd of large matrices, version 4.0 |
| C106 | `Maxc_Model.v`: maxConnections of the seven lattices, of a term and of the geometry, over the bonds of `Geo_Model.v`; `Maxc_Spec.v` says what a broken bond is and what at most n of them means | the broken bonds are all in a list that is short enough; refuted: open chains with a distance, ladders periodic across only, ladders with diagonals, baths of three sites or more |
| C107 | `Gap_Model.v`: operator() and connected with smax and emin of the term and of the geometry, over any fringe and getSubstituteSite, and those of the lattices; `Gap_Spec.v` says by how many columns the environment is moved | columns and rows of the sites next to the gap, then the bonds of `Geo_Proofs.v`; refuted: less than half a column in the system, two sites of the system, LadderX with four rows, K2NiF4 with two sites of the last cell, Honeycomb |
| C108, C109 | `Ofs_Model.v`: std::ofstream with a buffer that is handed over in part at any moment, IoSimple::Out, RedirectOutput with atexit; `Ofs_Spec.v` says what the files are if all is on the disk at once | simulation: disk and buffer together are the specified files; refuted: other processes that write a number or close, writes after close or after a refused open, a file called OSTREAM |
| C110 | `R48_Model.v`: drand48 and srand48 of POSIX as integers of 48 bits with one state per program, the product with 10000 rounded to 53 bits, objects in any order, `fillRandom` over `R` | the period by valuations of geometric sums at 2; pigeonhole for the refuted claims; the first number has fixed low bits and is never one half |
| C111 | `Mpr_Model.v`: the printing functions of Matrix.h and `printFullMatrix` as functions to text, the printed form of an element a parameter | loop invariants against `Mpr_Spec.v` (joined rows, one letter per value); refuted: nonzero print of tall matrices reads outside, its text is ambiguous, sparse matrices with many values |
| C112 | `Rot_Model.v`: `rotate` with the two products of BLAS (`gemm` of C59) | the products by `gemm_ok`; sums exchanged; refuted: sizes that do not fit give a result or reads outside, empty matrices |
| C113 | `View_Model.v`: views as sizes and offset with arithmetic modulo 2^64, the vector as state | the check is shown to be offset + rows * columns - 1 modulo 2^64; refuted: empty views at the start, huge views |
| C114 | `View_Model.v`: `basenameOf` | exact condition for a right answer; refuted in general |
| C115 | `Knf_Model.v` (direction with bath) and the K2NiF4 functions of `Geo_Model.v` | case analysis over the eight kinds of bonds of `Knf_Spec.v`, for every unit; refuted: the number of rows supposes two orbitals per oxygen |
| C116 | `Mesh_Model.v` over the real numbers | the division of the number of a point inverts the numbering; refuted: as many points as asked for, refusal of points off the mesh, meshes above 2^31 points, a mesh of no points |
| C117 | `Ngs_Model.v`: stacks as lists with the top first, on the files of `Ng_Model.v` | writing a stack is writing the vector of its elements, so the invariant of C49 applies; the read by induction over the elements from the last to the first |
| C118 | `Nrm_Model.v` over the real and complex numbers, with the vector functions of `Vec_Model.v` | the inequality of Cauchy and Schwarz by induction over the length; the rest from it |
| C119 | `Gpr_Model.v`: the two printing functions, over the functions orbitals, connected and the coupling of the term | the loops give the concatenation of the words; a reader of rows of words (`Gpr_Spec.v`) gets them back |
| C120 | `Lzo_Model.v`: the solver as an object with its steps and its stored vectors, over `Lanczos_Model.v` | a relation between two runs of the loop whose stored vectors agree up to the current step; then induction over the calls. That a used solver is as good as a new one is false: its number of steps is at most that of the call before |
| C121 | `Cfio_Model.v`: the constructors that read and the functions write, over the files of `Simple_Model.v` | each label is the next word of the text, and after it the number or vector; induction over the fractions. That every collection is read is false for empty ones, and for collections of the older format with more than one fraction |
| C122 | `Appi_Model.v`: the constructor, finalize and write over the files of `Ng_Model.v` | a record is a list of steps of C49; what was written stays until it is overwritten. That a record that cannot be written is refused is false after the end of the run |
| C123 | `Mred_Model.v`: allReduce with an operation; unsigned long as MPI_LONG; complex numbers as two reals; matrices as their elements | induction over the processes; arithmetic modulo 2^64. False: largest and smallest from 2^63 on, products of complex numbers, shapes of matrices |
| C124 | `Gwr_Model.v`: the write functions of Geometry, GeometryTerm and GeometryDirection, and vectors of objects, over the files of `Ng_Model.v` | the items form a tree of names below the label; writing a tree of new names, by induction on it, is a proper history of C49. Options that are empty are not covered; that all of a direction is kept is false, its degrees of freedom are not written |
| C125 | `Enumf_Model.v`: write and read of enumerations and of vectors of them, over the files of `Ng_Model.v` | an enumerator is the integer of its first byte, a vector is a tree of names as in C124. It is read back exactly if its number is at least 0 and less than 256; for other numbers the claim is false |

Properties whose natural statement is false of the code get a `_refuted` theorem with a concrete witness and a
`_partial` theorem which says under which condition the claim holds.

## 3. Trusted base

* **Kernel.** Coq 8.16.1's kernel (and its VM, which `vm_compute` uses). Tactics, `lia`, `ring`, `lra`, `nra`, `field`
  only build terms that the kernel checks. No kernel check is switched off, there is no `Axiom`, `Parameter`,
  `Admitted`, section-less `Variable`/`Hypothesis`, functor, module type or plugin of our own.
* **Axioms.** `Print Assumptions` stands after the theorems in each `T_Props.v`. Of the theorems in `MANIFEST.json`, all
  are *closed under the global context* except those about real numbers, in `Bisect_Props.v` (C56), `Akima_Props.v`
  (C57), `Cf_Props.v` (C69, C82), `Lanczos_Props.v`, `Lanall_Props.v` and `Lanreo_Props.v` (C60) and the further topics on real numbers listed in section 4:
  Chsolv (C86), Chser (C87), Ground (C88), Fermi (C89), Rk (C90).
  They rest on axioms of Coq's standard library only, those of its construction of the reals:
  `ClassicalDedekindReals.sig_forall_dec`, `ClassicalDedekindReals.sig_not_dec`,
  `FunctionalExtensionality.functional_extensionality_dep`, and for theorems about continuity (C56) or
  with the exponential function (C89, C90) `Classical_Prop.classic`.
  A global listing (`coqchk -o`) also names axioms of library files that are loaded but not used by a theorem (for
  instance `Coq.ssr.ssrunder.Under_rel`, whose fields belong to the `under` tactic).
* **Fidelity.** The models are written by hand from the C++ text. Nothing connects them to the compiled program but the
  line references in the comments; they, the specifications (`T_Spec.v`) and the statements in `T_Props.v` have to be
  read. `seeded/LOG.jsonl` records the test of the theorems against wrong programs.
* **Idealisations common to all topics.** Exact arithmetic instead of floating point. `nat` for `SizeType` except where
  stated. Asserts are checked, a failed one is `UB`. The conversions `std::atoi`/`atof` are exact (no overflow).
  The allocator never fails. Messages to the terminal are dropped. One process (no MPI), except in C04–C06, C94 and C95.

## 4. What is modelled, file by file

| source (src/) | topic | not modelled in it |
|---|---|---|
| AST/*.h | Ast (C52) | trigonometric functions, `reinterpret` of other value types |
| Ainur/AinurState.h, AinurMacros.hh, AinurConvert.hh | Ainur (C68) | the grammar of whole files is in Asp, functions read from files are in Afun |
| Ainur/AinurConvert1.cpp, AinurComplex.hh | Avec (C84, C85) | the spirit parser itself is replaced by a hand-written recogniser of the same grammar; `std::stod`/`atof` are parameters |
| AkimaSpline.h | Akima (C57) | file reading constructors |
| BitManip.h, PsiBase64.* | BitManip (C03), Base64 (C01, C02) | lengths over 2^31 |
| CanonicalExpression.h, QuasiCanonical.h, CmplxOrReal.h | Canon (C54) | the user's `SpecFunction` is a parameter |
| ChebyshevFunction*.h | Cheb (C55) | rounding of `acos`/`cos` in the explicit form (its polynomial identity is used) |
| Complex.h (stringToComplex) | Strc (C83) | overflow of the double |
| Concurrency.*, CodeSectionParams.h, LabelDisabled.h | Conc (C66) | MPI communicators, GPU |
| ContinuedFraction*.h, PlotParams.h | Cf (C69, C82) | file input/output: see C121 |
| CrsMatrix.h | Crs, Crsf (C17–C29, C71, C72, C75, C76, C81, C103), Mpim (C94, C95) | `ReadFromDisk`, GPU parts, `memResolv` of the members |
| Matrix.h, Matrix.cpp | Dense (C30, C73, C74), Text, Ng, Tri | LAPACK calls are parameters |
| GemmR.h | Gemm (C59) | negative sizes |
| Geometry/*.h | Geo (C36–C42, C79, C80) | GeometryEx, the reading of connectors from the input |
| GetBraOrKet.h, OneOperatorSpec.h | Opspec (C63) | |
| InputNg.h | Input (C43–C45), Solv (C67) | line macros, compact matrix formats, Ainur files |
| Io/IoNg*.h | Ng (C29, C31, C49–C51) | HDF5 itself: a finite map with the documented behaviour |
| Io/IoSimple.h | Simple (C47, C48) | MPI |
| LanczosCore.h, LanczosVectors.h, LanczosSolver.h | Lanczos (C60) | `lotaMemory = false`, overlaps of `oneStepDecomposition` used by time evolution |
| LinearPrediction.h | Linpred (C64) | |
| LoadBalancer*.h, Parallelizer2*.h, PthreadsNg.h, NoPthreadsNg.h, InterNode*.h | Parallel (C04–C06) | affinities, hardware topology |
| MersenneTwister.*, RandomForTests.h | Random (C14–C16, C70) | |
| Options.h, PsimagLite.cpp, PsimagLite.h | Str (C11–C13, C46, C62) | terminal functions |
| PackIndices.h, SumDecomposition.h, Permutations.h, Sort.h | SumDecomp (C09, C10), Permutations (C08), Sort (C07) | |
| Predicate*.h | Pred (C53) | |
| RootFindingBisection.h | Bisect (C56) | rounding |
| SparseVector.h, SparseRow.h, SparseRowCached.h | Sparse (C32–C35, C77, C78) | |
| Stack.h, Vector.h | Text (C61), Vec (C65) | |
| TridiagonalMatrix.h | Tri (C58), Lanczos, Ground (C88: `ground`) | IO; `diag2` (LAPACK) is a specified parameter; that `ground` converges |
| ChebyshevSolver.h, ChebyshevSerializer.h | Chsolv (C86), Chser (C87) | reading and writing, ground states (not implemented in the class) |
| Fermi.h | Fermi (C89) | rounding |
| RungeKutta.h | Rk (C90) | the variant for matrices; the warning of checkNorm; rounding |
| Ainur/AinurSpirit.h, AinurSpirit1.cpp, AinurLexical.h | Asp (C91) | boost::spirit itself: its grammar is rewritten by hand, with the rule that a rule without skipper skips before it starts and not inside |
| Ainur/AinurMacros.hh (AinurFunction) | Afun (C92) | the file system: a map from names to contents; std::atof and std::to_string are parameters |
| ApplicationInfo.h, examples/checkRunId.cpp | Rid (C93) | host name, clock, environment variables, output to streams |
| MpiYes.h | Mpi, Mpim (C94, C95) | the MPI library (its rules are the relation `step`), communicators except as said in C94, `scatter`, `split`, file operations, error codes |
| ProgressIndicator.h, ProgressIndicator.cpp, Profiling.h, MemoryUsage.h | Prog (C96, C97) | the clock, signals, std::cerr, rounding in `millis` |
| Geometry/LongRange.h | C98 | serialization (memResolv, write) |
| MemResolv.h, MemResolv.cpp | C99 | strings, complex numbers and maps (strings assume an old layout; the others throw), printing, the unused `finish` |
| InputNg.h (other overloads) | Inc (C100) | Ainur inputs; overflow in atof |
| PthreadsNg.h (threads) | Thr (C101) | messages, joining |
| `src/Geometry/Geometry.h` 90-183, `GeometryTerm.h` 150-324, `GeometryDirection.h` constructors | `Gin_Model.v` | kinds other than chain, ladder and star (parameter `other`), MPI broadcast |
| Minimizer.h | Minim (C104) | the GSL (its iterations, tests and points are any functions), what is printed, the destructor |
| Matrix.cpp, Svd.h, LAPACK.h | Lap (C105) | LAPACK (any functions), its floating-point errors, NO_LAPACK, messages |
| Geometry/*.h (maxConnections) | C106 | LongRange, whose number is read from the input (C98) |
| Geometry/*.h, GeometryTerm.h, Geometry.h (fringe, getSubstituteSite, couplings with smax and emin) | C107 | more than one orbital per site |
| Io/IoSimple.h (Out), RedirectOutput.hh | C108, C109 | precision, printing of vectors and matrices |
| Random48.h, PsimagLite.h (fillRandom) | C110 | rounding in fillRandom |
| Matrix.h (printing), CrsMatrix.h (printFullMatrix) | C111 | stream formatting of numbers |
| Matrix.h (rotate) | C112 | rounding |
| MatrixNonOwned.h | C113 | getVector (returns the vector) |
| Vector.h (basenameOf) | C114 | names of 2^31 characters or more |
| Geometry/KTwoNiFFour.h (calcDir, signChange, orbitals), Geometry/LadderBath.h (calcDir) | C115 | reading of SignChange |
| Geometry/GeometryEx.h | C116 | rounding; memResolv, write; the functions that give constants (dimension, nGroupK, index2Rvector); the variant with USE_MS_GEOMETRY |
| Io/IoNgSerializer.h (stacks, pairs of a number and an object) | C117 | elements that are no matrices; matrices without elements |
| Vector.h (norm, operator/=) | C118 | rounding, overflow and division by zero |
| Geometry/GeometryTerm.h (print), Geometry/GeometryDirection.h (operator<<) | C119 | the text of a number and of a matrix is a parameter; failing streams |
| LanczosCore.h (as an object), LanczosVectors.h (prepareMemory, dealWithStorageOfV, resize) | C120 | the object after an exception; rounding |
| ContinuedFraction.h, ContinuedFractionCollection.h (file input and output) | C121 | files of IoNg; rounding of printed numbers |
| ApplicationInfo.h (write) | C122 | host name, date, output to streams, setEnv |
| MpiYes.h, MpiYes.cpp, Matrix.h (allReduce with operations) | C123 | rounding; logical operations of MPI |
| Geometry/Geometry.h, GeometryTerm.h, GeometryDirection.h (write) | C124 | complex numbers |
| Io/IoNgSerializer.h (enumerations), TypeToH5.h | C125 | enumerations that are not based on int, other orders of bytes |

Not modelled at all: the libraries behind MPI, BLAS, LAPACK, GSL, HDF5 and boost; memory accounting (MemResolv.h,
MemoryCpu.h, AllocatorCpu.h, MemoryUsage.h); progress output and profiling; hardware detection.

## 5. Theorems named `_refuted`

A `_refuted` theorem proves, for a concrete witness or a whole class of inputs, that the natural reading of the claim is
false of the modelled code; the accompanying `_partial` (or unsuffixed) theorem says where it does hold. Their comments
in `T_Props.v` explain the consequence in terms of the API.

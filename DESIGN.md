# Formal model of HeuristicFlow in Rocq (Coq 8.16.1)

Paths are relative to `/repo/HeuristicFlow/src`. Model files live in `rocq/theories`.

## 1. Modelling conventions

* **Doubles and floats** are Flocq's `BinarySingleNaN.binary_float 53 1024` / `24 128` with round-to-nearest-even.
  These are computable: every witness is run by `vm_compute`. One NaN; payloads are not modelled.
* **libm** (`exp`, `pow`, `sqrt`, `sin`, ...) is an arbitrary function parameter (quantified in the theorem).
* **Randomness** is an explicit record of generator operations over an arbitrary state type, with an explicit
  specification (`randD` in [0,1), `shuffle` returns a permutation); theorems quantify over all of them.
* **std::sort** is an arbitrary function returning a sorted permutation (explicit premise, instance provided).
* **Iteration order of unordered containers** is an arbitrary permutation.
* **Iterators/pointers into std::list** are node identifiers. Dereferencing an identifier no longer in the list is the
  outcome `UB`. Out-of-range indexing, `front()` of an empty list, a `memcpy` past an allocation are also `UB`.
* **assert** failing is the outcome `Abort`. **Loops** without structural bound take fuel; running out is `Fuel`,
  a distinct outcome; non-termination theorems say "for every fuel, `Fuel`".
* `size_t`, `uint64_t`, `int` wrap explicitly where overflow is observable.
* A property violated by the code is kept at full strength as `..._refuted` with a witness, beside the largest true part.

## 2. Trusted base

Coq's kernel; the axioms shown by `Print Assumptions` for each theorem (only those of the standard library's Reals:
`ClassicalDedekindReals.sig_not_dec`, `ClassicalDedekindReals.sig_forall_dec`,
`FunctionalExtensionality.functional_extensionality_dep`, `Classical_Prop.classic`); the reading of C++ into Gallina,
definition by definition, cited in comments.

## 3. Per-property plan

| id | model | proof |
|---|---|---|
| C01-C03 | `GARun`: the run loop over arbitrary step functions, size_t wrap | induction on remaining rounds; wrap refutation by invariant |
| C04 | evaluation as a set of tasks executed in any interleaving | permutation invariance of disjoint updates |
| C05, C06 | crossover/mutation on node lists with RNG record | induction |
| C07-C16 | `SOGA`/`Selectors`: ten selection operators over doubles | correctness by induction over fuel; invariants over whole runs; termination by float bounds; StochasticUniversal by counting pointers against rounded prefix sums; refutations by `vm_compute`/invariant |
| C17-C24 | `Pareto`, `NSGA`: dominance counting, layering, crowding | counting lemmas, sorted permutation reasoning |
| C25-C28 | `NSGA3`: reference points (single and double layer), normalisation, association, niche preservation, `__impl_select`; Eigen's reductions, determinant and inverse are parameters (`lin_ops`) | bijection with compositions and Flocq error bounds; invariant of the niche counts; fuel induction; exact line distance over R |
| C29-C32 | `PSO` update with boxes | invariants over histories |
| C33-C37, C69, C70, C71 | `AOS`: the whole solver for boxed variables (Eigen and Std versions); `AOSSpec`: `before_round` = every moment a round can begin, `rounds`, the documented layer shares; `AOSMove`: the published update rule | sortedness; invariants over `before_round`; Flocq bounds; refutations by `vm_compute` |
| C38-C40 | `Box` | case analysis, Flocq |
| C41-C44 | `BinCode`: decode/encode loops on Flocq floats, one definition for both widths; specification `ieee64`/`ieee32` = Flocq's interchange formats | exactness of every operation as a multiple of a power of two; the three inexact roundings by computation |
| C45, C46 | `TemplateFloat` bit layout | `Z.land/lor/shift` lemmas, Flocq relative errors |
| C47, C48 | `Maths` | induction with wrap |
| C49-C51 | `Randoms`, `LogisticChaos` | Flocq monotonicity of rounding |
| C49 (arrays) | `RandArr`: the array versions of `randD` (Randoms.hpp:86-90, 104-108) as writes into an array that may be too short | induction on the number of elements |
| C52-C57 | `MultiBitSet`, `Matrix` | bit-level lemmas, index bijection, allocation-size outcome |
| C58-C60 | `Defaults`: the default operators | case analysis, Flocq error bounds |
| C61, C72, C74-C76 | `Bench`: every function once over an abstract number type, read over R; `BenchSpec`: minimum, dominance, optimality | real analysis (Taylor bounds, sums of squares), generic lemma on the DTLZ cascade |
| C77-C79 | `SOGAObj`: the solver object -- settings, function pointers, arguments, population -- under any list of calls; `SOGAObjSpec`: which calls are allowed | induction on the history with the invariant of the selectors (parameters in range, well-formed population, valid best) |
| C80, C81 | `BoxObj`: boxes with uninitialised members, setters and references; GaussianBox with a parameter for the normal draw (`GaussObj`: with its references and over floats) | frame lemmas on histories, reduction to C38-C40 |
| C82 | `Threads`: threadNum(), the captured statics, chunks of schedule(dynamic, n/thN) | induction on histories and chunks |
| C83-C85 | `PSOObj`: the PSO solver object -- box members that may be uninitialised, function pointers, arguments, option, swarm -- under any list of calls; `PSOObjSpec`: which calls are allowed, what was evaluated | induction on the history; frame lemmas; reduction of each run to C29-C31 |
| C86, C87 | `AOSObj`: the AOS solver object with a bounded or infinite box, function pointers, arguments, option, under any list of calls; `AOSObjSpec`: which calls are allowed (a region of positions, bounds on the box, the layer shares of C70); `AOSSafe`: one run from any such state, not only from a fresh initialisation | induction on the history; the invariants of C33-C37 for populations of any size; region = box or everything |
| C88, C89 | `MOGAObj`: the NSGA2 / NSGA3 object (fixed number of objectives, either reference point layout) under any list of calls; `MOGAObjSpec`: which calls are allowed (fitness values NSGA2 can compute with, precisions whose count does not overflow (C26), populationSize not raised without initializePop()) | induction on the history; the invariants (distinct identities, front entries are members, evaluated values satisfy a user predicate) hold for every typed history, one run is analysed from any such state with the lemmas of C17-C28; C24, C25, C26 give the ideal point and the reference points |
| C90 | the selection and run of C20-C24; `Props_Elite`: which individuals are best at an objective | in double arithmetic the distance of an inner individual is finite (each term at most 1, the sum saturates at 2^53), so at most two individuals per objective have an infinite one and, by C21, an extreme one is dropped only if more than 2M individuals had; induction over the rounds of a run |
| C91 | `BoxF`: the box operations over floats, with the conversions float -> double -> float that randD and Scalar_t() imply | rounding is monotone, so a draw between the bounds is converted to a float between them; the difference of two floats is finite as a double; refutations by `vm_compute` |
| C92 | the objects of C79 and C89; `RegionSpec`/`RegionSpecM` state what the user must respect | a run whose fitness function is replaced by NaN-free guard outside the region is the same run (the fitness is only ever applied to population members, which stay inside), so C79/C89 for the guarded object transfer |
| C93 | `Defaults.cFunNd` | rounded blending is monotone in both parents, so the extreme corners decide; halving is exact for normal numbers; the ratio 1/5 by evaluating the corners |
| C94 | `Par`: loop bodies as sequences of memory accesses, a team of threads, sequentially consistent interleavings | invariant over the schedule: every thread only touches what its own iterations own, so a thread's remaining program run alone on the current memory gives what it would have given at the start; the race of the PSO movement by driving both threads to their first draw |
| C95 | `ProgMO`: the example programs as call sequences on the solver object with the functions they install | C92 (a run whose functions keep a region) with the region of each program; the crossover keeps it by C93, the objectives are bounded by a calculus of magnitudes over double precision (`ProgMOProofs2`) |
| C96 | `ProgSO`: test/SOGA_TSP.cpp and test/SOGA_Ackley.cpp as call sequences on the solver object with the functions they install; the loop of `GABase` | induction over the loop for the stop reason (failTimes counts at most one per generation); C92 with the unit cube resp. the square as region; `sort` gives a permutation ordered by keys, hence a tour; loop invariant of the flip |
| C97 | `PSOObj` (the solver object); `PSORegionSpec`: where initializePop() and run() may put particles | ghost history of evaluated rows kept inside the region by induction over the calls and the loop (clampPos); stop reason by induction over the loop, failTimes counting at most one per generation |
| C98 | `ProgPSO`: test/PSO_RastriginFun.cpp and test/PSO_TSP.cpp as call sequences on the solver object with the functions they install (keys and distances in float) | C97 with the box as region, C85; rounding bounds for float and double give finiteness; `sort` gives a permutation ordered by keys, hence a tour; initial positions are among the evaluated ones, hence the result is never worse than the first number printed |
| C99 | `ProgAOS`: test/AOS_Rastrigin.cpp as a call sequence on the solver object; the compile-time box through encode and decode | C86/C87 for the object, C43 for the bounds; C36 keeps the electrons in the box; C33 and `settle_top` from any round on give the best of all tried; real bounds on exp (powers of rationals) and rounding bounds give the shares of 50 electrons in 1 to 5 layers (`ShareProofs`) |
| C100 | `BitIter`: reference_t and iterator_t as (container, index) over a heap of containers, the three loops users write, test/multiBitSet.cpp | induction over the loop from C52–C54 (`get_spec`, `op_set`); modular arithmetic of size_t; the program by composing the operations |
| C101 | `DiscObj`: the box classes as an object generic in the scalar type, with the integer, float and boolean branches of BoxBase | frame and last-call lemmas over histories; the operations shown equal to those of `Box`/`BoxF`, then C38–C40, C91 |
| C102 | `ProgBox`: test/Boxes.cpp call by call on the box objects of `BoxObj`/`DiscObj` and the encoded floats of `BinCode` | C80, C101, C91 and C44 instantiated at the program's histories; the loop over box2 by computation over abstract scalars |
| C103 | `MatObj`: memory cells that are raw or hold an object, a ledger of constructions and destructions; the two inverted `if constexpr` of resize | invariant that every cell holds an object, kept by every call that fits; the failures by computation on raw cells |
| C104 | `ProgSmall`: the three programs over `BinCode`, `GlobalM` and `Bench`; decimal literals as correctly rounded quotients, the bits in memory by Flocq's `bits_of_b64` | bit by bit for printBin; C43, C44 for the lines; the ten literals by evaluation of Flocq's division; the table over the reals by C61 |
| C105 | `SolverCopy`: any number of SOGA objects (`SOGAObj`) with one allocator and one generator; member-wise copy with new list nodes and the old iterator, std::list's operator= reusing nodes, selection reading the best through any live node | invariant: all nodes of all objects differ and no iterator holds an address still to be given; new nodes come from the allocator through selection, crossover, mutation and initialisation (induction on the loop and on the history) |
| C106 | `MOGACopy`: any number of NSGA2 or NSGA3 objects (`MOGAObj`) with one allocator and one generator; member-wise copy with new list nodes and the old pointer set, std::list's operator= reusing nodes, paretoFront() reading through any live node | invariant: all nodes of all objects differ and no pointer holds an address still to be given; selection never reads the old front (`sel_blind`) and leaves an exact one (C18, C89); induction on the loop and on the history |
| C107 | `AOSCopy`: any number of AOS objects (`AOSObj`) with one allocator and one generator; member-wise copy with new list nodes and the old pointers, move taking the nodes, std::list's operator= reusing nodes; the first round of run() reads the old best electron wherever it is | invariant: all electrons of all objects differ and no pointer holds an address still to be given; the first round with a foreign best is a round with an own one up to the early-stop counter (`settle_from_aim`); selection makes layers of survivors and a stable sort keeps the best; induction on the loop and on the history |
| C108 | `PSOCopy`: any number of PSO objects (`PSOObj`) with one generator; all members are values, declared destructors suppress moves | the lives of the solvers (construction and calls, inherited by copies) as a separate specification; induction on the history: each object is what the single-object machine makes of its life |
| C109 | `EnumStr`: the enumerators with their numbers, the six Enum2String with falling off the end as undefined, the menu loop | case analysis over values; the loop by evaluation for every sufficient number of rounds |
| C110 | `AOSLayer`: the accessors of Layer over the electrons and layers of `AOS` | run() ends with a selection (`run_last`); C34's sorted row of survivors, whose cuts the layers are |
| C73 | the same definitions read over doubles, for every C library | sign and monotonicity lemmas on Flocq operations |
| C62 | `MOGAProofs4`: the fail counter is never written | invariant over rounds |
| C63, C64 | `VarInv`: closure of a predicate under one round, composed with the run loop | induction over rounds |
| C65, C66 | `WheelSpec`: a contest of draws, defined without the selectors; `WheelProofs*` relate the selectors to it | induction over the spin loops; Flocq monotonicity and relative error |
| C67 | one PSO step per coordinate | monotonicity of rounded sums/products |
| C68 | `heu_sign` | case analysis |

## 4. What is modelled, file by file

| file | modelled | not modelled |
|---|---|---|
| `Genetic/GABase.hpp`, `GAAbstract.hpp`, `GAOption.hpp`, `DefaultGeneType.hpp` | `GABase.v`: initializePop, run (both record versions), calculateAll as tasks in any interleaving, crossover, mutate, size_t counters | output under HEU_DO_OUTPUT; the `reserve` hint of mutate (305) |
| `Genetic/SOGA.hpp`, `SOGASelecters.hpp` | `SOGA.v`: all ten selectors, their shared helpers, run-time choice, bestGene/bestFitness | `exp`/`pow` are parameters |
| the same as an object: constructors, setters, `Global/FunBody.hpp`, `customArgs` | `SOGAObj.v` | a null fitness/crossover/mutation pointer or an unset Boltzmann strength counts as undefined even if the draws never use it |
| `Global/Threading.hpp`, the `omp parallel for` lines | `Threads.v`, `Par.v` (C94: the loops as memory accesses, all interleavings) | the OpenMP runtime (each chunk goes to one thread), weak memory (race-free loops need none); the pragma has no num_threads clause, so threadNum() only sets the chunk size |
| `Genetic/NSGABase.hpp`, `NSGA2.hpp`, `MOGABase.hpp`, `MOGAAbstract.hpp`, `EAGlobal/Pareto.hpp` | `MOGA.v`; `MOGAObj.v`: the solver object | MOGAAbstract 99 and MOGABase's run-time version (do not compile) |
| `Genetic/NSGA3*.hpp` | `NSGA3.v`; `MOGAObj.v`: the solver object | Eigen's determinant, inverse and reductions are parameters (`lin_ops`) |
| `Genetic/Miscellaneous4GA.hpp` | `Defaults.v`: real and binary/symbolic operators that compile | `mFun_s` (names a non-existent member), Std swap crossover (Eigen members on std containers) |
| `Genetic/IsGene.hpp`, `Global/Types.hpp`, `Macros.hpp` | nothing: type traits and static dispatch, without run-time behaviour | all |
| `Global/Enumerations.hpp` | `EnumStr.v` | - |
| `Global/FunBody.hpp`, `*ParameterPack.hpp` | the stored function pointers and arguments, as slots of the objects: `SOGAObj.v`, `PSOObj.v`, `AOSObj.v`, `MOGAObj.v` (C78, C84, C86, C88) | the template plumbing |
| `PSO/*` | `PSO.v`: PSOAbstract (both record versions), PSO4Eigen, BoxWithVelocity; `PSOObj.v`: the solver and its box as an object | PSO4std (names members that do not exist), dynamic rectangle boxes (`velocityMax()` does not compile), `setRange`/`setPVRange` of rectangle boxes (name `array_traits::isSizeFixed`, which does not exist: the text modelled by `set_rect_pv` in C32 cannot be instantiated, a rectangle is set through references, modelled in `PSOObj.v`); the solver theorems are about the sequential movement loop -- the parallel one races on the generator (C94) |
| `AOS/*` | `AOS.v`: whole solver for boxed variables; `AOSLayer.v`: the accessors of a layer; `AOSObj.v`: the object, AOS_square, AOS_rect and AOS_inf | the non-OpenMP branch naming non-existent members |
| `EAGlobal/BoxConstraint.hpp`, `SizeBody4BoxConstraint.hpp` | `Box.v`: square/rectangle, real/binary/symbolic, fixed/dynamic, double precision; `BoxObj.v`: continuous boxes and GaussianBox as objects; `DiscObj.v`: discrete, boolean and float boxes as objects; `BoxF.v`: boxes over floats; `GaussObj.v`: GaussianBox as an object over doubles and floats, with its references | (nothing else in these files) |
| `EAGlobal/SOFunctions.hpp`, `MOFunctions.hpp` | `Bench.v`; `Bench8.v`: DTLZ8 for a fixed Fitness_t | FonsecaFleming, Kursawe for fixed Eigen arrays, DTLZ5/6 for std containers (do not compile) |
| `Global/HeuMaths.hpp`, `LogisticChaos.hpp`, `Randoms.hpp`, `TemplateFloat.hpp` | `GlobalM.v`, `Rng.v` | the engine behind the generator (an arbitrary stream) |
| `test/NSGA2_ZDT3.cpp`, `NSGA2_Kursawe.cpp`, `NSGA2_Binh_And_Korn.cpp`, `NSGA3_DTLZ7.cpp` | `ProgMO.v`: the whole programs | printing, reading of the typed-in numbers |
| `test/SOGA_TSP.cpp`, `test/SOGA_Ackley.cpp` | `ProgSO.v`: the whole programs (std::rand() and the library's generator as one combined state) | printing, reading of the typed-in numbers, the time measured |
| `test/PSO_RastriginFun.cpp`, `test/PSO_TSP.cpp` | `ProgPSO.v`: the whole programs; the random points of PSO_TSP are any floats in [-1,1] | printing, reading of the typed-in number, the time measured, failing allocation |
| `test/AOS_Rastrigin.cpp` | `ProgAOS.v`: the whole program | printing, the time measured, failing allocation; exp, cos and Eigen's sum are any functions within the stated error bounds |
| `test/multiBitSet.cpp` | `BitIter.v`: the whole program | printing; the byte writes through `reinterpret_cast` are little-endian |
| `test/Boxes.cpp` | `ProgBox.v`: the whole program | printing, sizeof, compile-time type questions |
| `test/simpleMatrix.cpp` | `MatObj.v`: the whole program | printing |
| `test/testEncoder.cpp`, `test/MinMaxCompileTime.cpp`, `test/testFunctions.cpp` | `ProgSmall.v`: the whole programs (testFunctions.cpp over the real numbers, Eigen's setLinSpaced as its formula) | the fixed texts printed |
| implicitly declared copy constructor and assignment of SOGA, NSGA2, NSGA3, AOS, PSO, move constructor and assignment of AOS | `SolverCopy.v`, `MOGACopy.v`, `AOSCopy.v`, `PSOCopy.v` | a moved-from AOS |
| `Global/ConvertDoubleAndBinCode.hpp` | `BinCode.v` | - |
| `lab/*` | nothing: experiments outside the library, not built by default | all |
| `SimpleMatrix/*` | `Matrix.v`, `MapMore.v` (iteration and fill of maps), `MatObj.v` (elements of class type), `MultiBitSet.v`, `BitIter.v` (references, iterators) | MultiBitSet's move constructor and constIterator_t (cannot be instantiated), Matrix copy constructor and move assignment (undefined for every argument), copy assignment of trivial elements (does not compile), MatrixMap's mixed assignment |

Not expressible: statistical quality of random numbers, run time, compile-time errors of never-instantiated templates
(noted where met).

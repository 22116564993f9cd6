import json
P=[]
def p(id,title,st,q,why,*anch):
    P.append(dict(id=id,title=title,statement=st,quantifier=q,why_tests_cant=why,anchors=list(anch)))
S="HeuristicFlow/src/"
G=S+"Genetic/";E=S+"EAGlobal/";GL=S+"Global/";PS=S+"PSO/";A=S+"AOS/";M=S+"SimpleMatrix/"
# --- GA framework
p("C01","GA run terminates within maxGenerations","For every solver, run() returns after at most maxGenerations+1 rounds of (evaluate, select, record) provided maxGenerations is smaller than the largest size_t, and afterwards generation() <= maxGenerations. With maxGenerations equal to the largest size_t and maxFailTimes 0 the round counter wraps and run() never stops.","every fitness function, selection/crossover/mutation behaviour, random stream, option values and initial population","A test runs a handful of option values and random seeds; the bound must hold for every callback and every stream, and the wrap-around needs 2^64 rounds to observe.",G+"GABase.hpp: GABase::__impl_run (171-205)",G+"GAOption.hpp")
p("C02","GA stops exactly at the first round that meets the stop rule","run() stops at the first round t (counted from 1) with t > maxGenerations, or, when maxFailTimes > 0, with failTimes() > maxFailTimes; crossover and mutation are executed after every earlier round and never after the last one; generation() then equals t-1.","every sequence of failTimes values the selection step can produce, every option value","Tests see only fixed schedules of failures; the rule is about all of them.",G+"GABase.hpp: GABase::__impl_run (171-205)")
p("C03","One record entry per round, equal to the best fitness of that round","After run() of a solver that records fitness, record() has exactly generation()+1 entries and its i-th entry is the best fitness right after the i-th selection; records of an earlier run are discarded. ","every run, every option value, any number of consecutive runs","Universal over run lengths and histories.",G+"GABase.hpp: 171-205, 385-432",G+"SOGA.hpp")
p("C04","Each individual is evaluated exactly once, with its own genes, under every thread schedule","After the evaluation step every individual carries the fitness f(self); individuals already evaluated are not evaluated again; the result is the same for every partition of the tasks among threads and every interleaving of the task completions.","every population, every fitness function, every number of threads and interleaving","Schedules cannot be enumerated by tests.",G+"GABase.hpp: computeAllFitness (213-244)")
p("C05","Crossover keeps parents and appends disjoint pairs' children","The crossover step leaves every existing individual untouched, selects each individual for at most one pair, appends exactly 2*floor(n/2) new unevaluated individuals where n is the number of selected individuals, and each pair of children is the crossover function applied to one pair of distinct existing individuals.","every population, crossover function, probability and random stream/shuffle","Random-dependent; parity and multiplicity claims range over all streams.",G+"GABase.hpp: crossover (262-297)")
p("C06","Mutation keeps originals and appends mutants","The mutation step leaves every existing individual untouched (position, genes, fitness) and appends exactly one unevaluated individual for each individual whose draw is <= mutateProb, each being the mutation function applied to that individual, in order.","every population, mutation function, probability and random stream","Random-dependent.",G+"GABase.hpp: mutate (303-317)")
# SOGA
p("C07","Truncation selection keeps the populationSize best","With Truncation, the survivors are a sub-collection of the previous population of size min(populationSize, previous size) and no removed individual has strictly better fitness than a survivor.","every population with comparable fitness values, every sort implementation","Ties, sizes and sort instability make the input space unbounded.",G+"SOGASelecters.hpp: Truncation (48-79)")
p("C08","Elitist selection: best fitness never gets worse","With Truncation, or EliteReserved with at least one elite, the best fitness after a selection is at least as good as the best fitness of the population before it, so successive best fitness values are monotone; for the random selections (roulette wheel etc.) this is not guaranteed.","every history of generations","A monotonicity claim over all histories; the counter-case depends on the random stream.",G+"SOGASelecters.hpp",G+"SOGA.hpp: updateFailTimesAndBestGene (206-223)")
p("C09","Population size after single-objective selection is populationSize","When the population before selection has at least populationSize individuals, exactly populationSize survive, for every random stream. EliteReserved leaves eliteNum individuals if that is more than populationSize. StochasticUniversal leaves populationSize or populationSize+1 individuals when two fitness values differ by at least 2^-900; with equal (or barely different) fitness it removes nobody, so exactness is refuted for it.","every selection method, population, fitness assignment and random stream","Needs all populations incl. equal fitness, zero fitness, sizes and random streams; StochasticUniversal with equal fitness and EliteReserved with more elites than slots violate it.",G+"SOGASelecters.hpp (48-973)")
p("C10","Selection never invents or duplicates individuals","After any single-objective selection other than Tournament's explicit duplication, the surviving individuals are a sub-collection (in population order) of the individuals before it; with Tournament every survivor is a copy of an individual from before.","every selection method, population and random stream","Universal over random streams.",G+"SOGASelecters.hpp (48-973)")
p("C11","bestGene is the best survivor","After each selection the individual reported as the result is a member of the surviving population and no survivor is strictly better.","every selection method, population and random stream","Universal over populations and tie patterns.",G+"SOGA.hpp: findCurrentBestGene (188-197)",G+"SOGASelecters.hpp")
p("C12","failTimes counts consecutive rounds without strict improvement","failTimes() equals the number of rounds since the best fitness last strictly improved over the previous round's best fitness.","every history of best-fitness values","History property.",G+"SOGA.hpp: updateFailTimesAndBestGene (206-223)")
p("C13","Selection never reads a removed individual","No selection of Tournament, RouletteWheel, MonteCarlo, Probability, LinearRank, ExponentialRank, Boltzmann or StochasticUniversal, and no whole run with them, reads an individual that was removed from the population or fails an assertion. Truncation and EliteReserved read the removed previous best individual exactly when they remove it: never when fewer than populationSize (eliteNum) others are at least as good, always (Truncation) when populationSize are strictly better; a whole run reaching this is exhibited.","every population and history","Use-after-free usually goes unnoticed in tests.",G+"SOGASelecters.hpp: 48-79, 810-907",G+"SOGA.hpp: 206-223")
p("C14","Selection terminates","With finite fitness of magnitude up to 2^899 (and weights that do not overflow) every selection and every whole run of Tournament, MonteCarlo, Probability, LinearRank, ExponentialRank, Boltzmann, StochasticUniversal and Truncation ends, whatever the random stream, each turn of the wheel eliminating one individual; RouletteWheel and EliteReserved end for every stream that keeps producing small draws, and hang on equal fitness for some admissible streams. A fitness range that overflows (RouletteWheel) or an overflowing exponential (Boltzmann) makes the selection endless for every stream.","every finite non-NaN fitness assignment and every random stream","Non-termination for particular streams or overflowing weights cannot be found by sampling.",G+"SOGASelecters.hpp: RouletteWheel, MonteCarlo, Probability, LinearRank, ExponentialRank, Boltzmann")
p("C15","Tournament keeps exactly populationSize copies and each is the winner of its tournament","Each of the populationSize tournaments picks tournamentSize random contestants and the copy kept is a contestant that no contestant strictly beats.","every population, tournament size, random stream","Random-dependent.",G+"SOGASelecters.hpp: Tournament (181-297)")
p("C16","Run-time selection executes exactly the chosen method","With the run-time selection solver, selection after setSelectMethod(m) behaves exactly as the compile-time solver for m; the compile-time solver never changes its method.","every method value, every population","Equivalence over all states.",G+"SOGASelecters.hpp: 909-973")
# NSGA
p("C17","Pareto dominance is a strict partial order","a dominates b iff a is not worse in every objective and strictly better in one; the relation is irreflexive, asymmetric and transitive, for min- and max-problems, any number of objectives.","every pair/triple of objective vectors without NaN","Universal over vectors and dimensions.",E+"Pareto.hpp: 59")
p("C18","First layer is exactly the non-dominated set","In NSGA-II/III the individuals put into the first layer are exactly those no individual dominates; it is never empty for a non-empty population; a dominated individual always lies in a strictly later layer than its dominator.","every population, every objective count","Universal.",G+"NSGABase.hpp: 105-149")
p("C19","Layers are the non-dominated fronts","Layer k+1 is the set of individuals non-dominated after removing layers 1..k (the classical definition). Refuted: layers group by number of dominators.","every population","A witness must be constructed.",G+"NSGABase.hpp: 136-149")
p("C20","NSGA-II/III selection keeps exactly populationSize individuals","When at least populationSize individuals exist, exactly populationSize survive, each an individual from before; with fewer, selection reads the front of an empty list (undefined behaviour).","every population, objectives, random stream","Universal over populations and sort orders.",G+"NSGA2.hpp: 181-278",G+"NSGA3Abstract.hpp: 117-233, 392-447")
p("C21","NSGA-II respects layer and crowding priority","If an individual of some layer is eliminated, no individual of a later layer survives; inside the cut layer no eliminated individual has strictly greater crowding distance than a survivor.","every population","Universal.",G+"NSGA2.hpp: 181-278")
p("C22","The Pareto front reported after selection is mutually non-dominated, part of the surviving population, and complete","pfGenes are survivors, none is dominated by any individual considered in this round, and when the first layer fits in populationSize they are exactly the non-dominated individuals.","every population","Universal.",G+"NSGA2.hpp: 181-278",G+"NSGABase.hpp: updatePF (155-171)")
p("C23","Extreme individuals get infinite crowding distance","For each objective the two extreme individuals of a layer have infinite crowding distance, all others the sum over objectives of the gap between neighbours divided by the range.","every population and sort","Universal.",G+"NSGA2.hpp")
p("C24","MOGA bestFitness is the ideal point","bestFitness() of a multi-objective solver is, per objective, the best value found in the population.","every population","Universal.",G+"MOGAAbstract.hpp: 135")
p("C25","NSGA-III reference points are exactly the simplex lattice","The generated reference points are all vectors with M coordinates that are multiples of 1/p and sum to 1, each exactly once.","every objective count M >= 2 and precision p >= 1","Unbounded M, p.",G+"NSGA3Abstract.hpp: pri_makeRP, pri_startRP (472-500)",G+"NSGA3Base.hpp")
p("C26","referencePointCount equals the number of points generated","referencePointCount() = C(M+p-1,p) equals the number of reference points generated; fails when the factorials overflow.","every M and p","Overflow threshold.",G+"NSGA3Base.hpp: 108, 203",GL+"HeuMaths.hpp: NchooseK (84-90)")
p("C27","NSGA-III niche preservation terminates with exactly the free slots filled","Niche preservation ends, having added exactly the number of missing individuals, all from the cut layer, without repetition, picking at each step a reference point of minimal niche count among the ones that still have candidates.","every cut layer, association, random stream","Loop over random picks.",G+"NSGA3Abstract.hpp: 392-468")
p("C28","NSGA-III association is to the nearest reference line","Every individual is associated with a reference point whose perpendicular distance is minimal.","every population","Universal.",G+"NSGA3Abstract.hpp: 325-372")
# PSO
p("C29","PSO particles stay in the box","After initialisation and after each update each coordinate of each particle's position lies in [posMin,posMax] and each velocity coordinate in [-velocityMax,velocityMax].","every history, dimension, inertia/learn factors and random stream, including overflow to infinity","Float overflow and all histories.",PS+"PSO4Eigen.hpp: 85-109",PS+"BoxWithVelocity.hpp",PS+"PSOAbstrcat.hpp: 303-320")
p("C30","pBest/gBest are the best ever evaluated","After every generation pBest of a particle is the best fitness point that particle has ever had, and gBest is at least as good as every point evaluated since initialisation.","every history, fitness function and random stream","History property.",PS+"PSO4Eigen.hpp: 60-79",PS+"PSOAbstrcat.hpp: 178-192")
p("C31","PSO run: bound, stop rule, record, monotone best","run() does at most maxGeneration+1 rounds, generation() <= maxGeneration; the record has generation()+1 entries, monotone; failTimes counts rounds in which gBest did not improve.","every history","History property.",PS+"PSOAbstrcat.hpp: 233-267")
p("C32","PSO box accessors return the configured bounds","posMax(i) returns the upper bound that was set. Refuted for the square box: it returns the lower bound.","every box","Value-dependent (equal bounds hide it).",PS+"BoxWithVelocity.hpp: 32-89")
# AOS
p("C33","AOS trims to electronNum keeping the best","After every selection the electronNum best electrons remain, in their order; the best fitness found so far never gets worse, round by round and across run() calls; bestElectron() is one of the survivors.","every history of initializePop() and run() calls, every options, fitness function and random stream","History property.",A+"AOS.hpp: 72-137",A+"AOSBase.hpp")
p("C34","AOS layers partition the electrons in energy order","Concatenating the layers from inner to outer yields the electrons sorted by energy; no electron is lost or duplicated and no layer index is out of range.","every electron list and layer-count draw","Random-dependent.",A+"AOS.hpp: 72-137")
p("C35","AOS run termination and counters","run() stops at the first round after whose selection generation() >= maxGenerations or earlyStop() >= maxEarlyStop; generation() counts the completed rounds and never exceeds maxGenerations when started fresh; earlyStop() is the number of rounds in a row without a change of the best fitness; a second run() makes exactly one more round, which changes no electron.","every history","History property.",A+"AOSBase.hpp: 46-125",A+"AOS4EigenAndStd.hpp: 40-69")
p("C36","AOS electrons stay in the box","Every electron produced by initialisation, photon emission or absorption and non-photon effects lies in the box.","every history and random stream","Random-dependent.",A+"AOS4EigenAndStd.hpp",E+"BoxConstraint.hpp")
p("C37","AOS lowest-energy state of a layer is its best electron","The lowest energy electron of a layer has the best energy in that layer. Refuted for the Eigen version: pointers are compared.","every layer","Address-dependent, invisible to tests.",A+"AOS4EigenAndStd.hpp: 71-94")
# Box
p("C38","applyConstraint projects into the box","After applyConstraint every coordinate lies in [min,max]; coordinates inside are unchanged; a coordinate outside moves to the violated bound; applying twice changes nothing; NaN coordinates stay NaN.","every vector, dimension, box","Universal.",E+"BoxConstraint.hpp: 53-66")
p("C39","initialize produces a vector inside the box","For continuous boxes every coordinate lies in [min,max]; for boolean boxes it is a boolean; for discrete boxes in {min..max} with max attainable.","every box and random stream","IEEE rounding for all bounds.",E+"BoxConstraint.hpp: 38-51",GL+"Randoms.hpp")
p("C40","applyDelta changes one coordinate and stays inside","Applying a mutation step changes at most one coordinate, leaves the vector in the box; boolean: flips exactly one; discrete: moves by at most one (refuted for unsigned at 0).","every vector in the box, every random stream","Universal incl. wrap-around.",E+"BoxConstraint.hpp: 68-80, 462-503, 627-664")
# codecs
p("C41","decode(binCode64) is the IEEE value","decode(c) equals the binary64 number whose bit pattern is c, for each of the 2^64 codes (NaN codes give NaN).","all 2^64 codes","2^64 cases and rounding in the decoding loop.",GL+"ConvertDoubleAndBinCode.hpp: 87-154")
p("C42","decode(binCode32) is the IEEE value","decode(c) equals the binary32 number whose bit pattern is c.","all 2^32 codes","Loop with 52 rounds over float; rounding.",GL+"ConvertDoubleAndBinCode.hpp: 163-230")
p("C43","encode(double) is the IEEE bit pattern and decode(encode(x)) = x","For every non-NaN double. Refuted: predecessor of powers of two and DBL_MAX and -0.0 are mis-encoded; holds for all others.","all doubles","2^64 cases.",GL+"ConvertDoubleAndBinCode.hpp: 234-379")
p("C44","encode(float) is the IEEE bit pattern and decode(encode(x)) = x","For every non-NaN float; refuted e.g. for +infinity which becomes -infinity.","all floats","Rare values.",GL+"ConvertDoubleAndBinCode.hpp: 388-405")
p("C45","DivCode round trip","DivDecode<DivEncode<a,b>> is the correctly rounded quotient a/b for all uint32 a,b; distinct (a,b) give distinct codes.","all pairs of 32-bit unsigned integers","2^64 pairs.",GL+"TemplateFloat.hpp: 75-101")
p("C46","PowCode round trip","PowEncode<s,p> accepts exactly |s| < 10^17, |p| <= 255. The decoded power is always p; the decoded significand is the amplified significand s*10^k (17 decimal digits) if and only if |s|*10^k < 2^54, and then the decoded double is s*10^(k-16)*10^p up to a relative error of 2^-42; 0 decodes to 0. Otherwise the field overflows into the sign (refuted: 2 decodes to about -0.2).","all accepted significands and exponents","Value-dependent overflow.",GL+"TemplateFloat.hpp: 126-235")
# maths
p("C47","fractorial and NchooseK are exact until the factorial overflows","fractorial(n)=n! and NchooseK(N,K)=C(N,K) for N<=20 and K<=N; beyond, size_t wraps (refuted at N=21).","all arguments","Overflow boundary.",GL+"HeuMaths.hpp: 66-90")
p("C48","min/max of a pack are the least/greatest element","heu::min / heu::max return an argument that is <= / >= all arguments.","every argument list","Universal.",GL+"HeuMaths.hpp: 151-246")
# random
p("C49","randD(min,max) lies in [min,max]","For all finite min<max with max-min finite and every generator output; the documented half-open interval [min,max) is refuted. The array versions randD(dst,num) and randD(dst,num,min,max) replace exactly the num elements from dst on by num successive such results and leave the rest of the array alone; with num <= 0 they do nothing; reaching outside the array is undefined.","every pair of doubles and every random draw","2^192 cases and rounding.",GL+"Randoms.hpp: 81-110")
p("C50","randIdx(n) is a valid index","randIdx(n) lies in [0,n) for every n >= 1 representable by the index type and every draw.","every n, every draw","float rounding for large n.",GL+"Randoms.hpp: 130-145")
p("C51","LogisticChaos stays in [0,1] and its bulk interfaces agree with single stepping","From a value in [0,1] all later values are in [0,1]; makeSequence(n) yields the same values as n calls of operator(); iterate(n) leaves the same state.","every start value and length","Float rounding.",GL+"LogisticChaos.hpp: 40-107")
# containers
p("C52","MultiBitSet read-after-write","After setting element i to v, reading i returns v mod 2^eleBits, and every other element reads as before.","every element width, block width, index, value, content","Unbounded sizes and straddling offsets.",M+"MultiBitSet.hpp: 596-656")
p("C53","MultiBitSet never touches memory outside its blocks","Every access to index < size stays within the allocated blocks. Refuted for sizes whose bit count exceeds float precision, and in the copy constructor.","every size","Needs 2^24-bit containers.",M+"MultiBitSet.hpp: 354-421")
p("C54","MultiBitSet keeps elements when growing","push_back and reserve preserve the existing elements. Refuted.","every history","History property.",M+"MultiBitSet.hpp: 459-560")
p("C55","Matrix element access is a bijection and write-after-read consistent","(r,c) access with r<rows, c<cols addresses distinct elements of the storage in column-major order; writing one leaves others.","every size","Unbounded sizes.",M+"MatrixDynamicSize.hpp: 306-338",M+"MatrixFixedSize.hpp")
p("C56","Matrix resize/reserve keep the storage large enough","After resize(r,c) storage has room for r*c elements; reserve(n) guarantees capacity >= n and never overruns (refuted).","every history","History property.",M+"MatrixDynamicSize.hpp: 230-275")
p("C57","MatrixMap aliases, deepCopy copies","Writing through a map changes the mapped storage; copying a map shares the storage; deepCopyTo yields an independent equal matrix. The loop from begin() to end() visits every element once in column order; fill() writes every element and nothing else. Refuted: that assignment to a map starting inside the source copies it (it repeats the first elements of the source over and over).","every history","Aliasing.",M+"MatrixMap.hpp")
# operators
p("C58","Arithmetic crossover keeps children between the parents","Each child coordinate of the default real crossover equals the blend r*a+(1-r)*b up to a rounding error of a few units in the last place, hence lies between the parents up to that error. Refuted without the error term: the default ratio can push children outside [min,max] of the parents.","every parents, ratio","Universal.",G+"Miscellaneous4GA.hpp: 35-69")
p("C59","Swap/uniform crossover preserve the gene pool per locus","Single-point swap exchanges exactly a suffix; in uniform crossover each child coordinate is one of the two parents' values at that locus. Refuted: uniform crossover need not keep both parents' values (the two children draw separately), and the run-time-size version ignores its probability.","every parents, random stream","Universal.",G+"Miscellaneous4GA.hpp: 47-85, 419-450")
p("C60","Default mutation stays in the box","The box-based mutation yields a vector inside the box which differs from the parent in at most one coordinate.","every parent in the box, random stream","Universal.",G+"Miscellaneous4GA.hpp: 135-169, 303-330")
p("C61","Two-variable benchmark functions have the documented minimum","Over the real numbers beale, booth, bukin, matyas, levy, himmelblau, three-hump camel, easom, ackley, McCormick and the fourth Schaffer function have the documented smallest value, attained exactly at the documented points (McCormick: over the documented domain; Schaffer 4: bounds). Refuted: Goldstein-Price (12 instead of 3 at its documented minimum), the second Schaffer function (never below 1/2), Holder's table (NaN wherever |x|<|y|); ackley is evaluated with 2/pi in place of 2*pi.","every real argument","Infinite domain: no set of samples shows that a value is a minimum or the only one.",E+"SOFunctions.hpp: 58-201")
# found while modelling
p("C62","Multi-objective solvers never stop early","failTimes() of NSGA-II/III stays 0, so maxFailTimes has no effect: every run() that returns has generation()==maxGenerations.","every option, fitness function, random stream","Concerns all histories.",G+"NSGA2.hpp: 181-278",G+"NSGA3Abstract.hpp: 117-233",G+"GABase.hpp: 171-205")
p("C63","Decision-variable invariants survive a run","Any predicate on the decision variable that iFun establishes and cFun and mFun preserve holds for every individual of the population when run() returns.","every predicate, user functions, options, random stream, selection method","Concerns all histories.",G+"GABase.hpp: 171-470",G+"SOGASelecters.hpp",G+"NSGA2.hpp: 181-278")
p("C64","A run with the default box operators stays in the box","With box initialisation, swap or uniform crossover and box mutation every individual is inside the box when run() returns.","every box, fitness function, option, random stream, selection method","Concerns all histories and all random draws.",G+"Miscellaneous4GA.hpp",E+"BoxConstraint.hpp",G+"GABase.hpp: 171-470")
PS=S+"PSO/" if 'S' in globals() else "HeuristicFlow/src/PSO/"
p("C65","A better individual never gets a smaller selection weight","In the weight-based selection methods, an individual whose fitness is at least as good as another's gets a processed fitness / selection weight at least as large.","every population of finite fitness, every parameter","Float rounding for every pair of values.",G+"SOGASelecters.hpp")
p("C66","Weighted draws pick the individual whose interval contains the draw","In a wheel selection the survivor chosen for a draw r is the one whose cumulative-weight interval contains r, whichever weights and draws occur.","every weights and draws","Universal.",G+"SOGASelecters.hpp")
p("C67","PSO particles are attracted by pBest and gBest","With non-negative factors a coordinate lying at or below both its pBest and the gBest coordinate and not moving down does not decrease in an update, and symmetrically; a particle at rest at the common best stays there.","every particle, draws, box and factors of moderate size","Float rounding for all values.",PS+"PSO4Eigen.hpp: 85-109")
p("C68","sign tells positive, negative and zero apart","heu::sign(x) is 1 for positive, -1 for negative and 0 for zero x.","every double","Universal.",GL+"HeuMaths.hpp: 46-58")
p("C69","AOS binding state and energy are means","The binding state and binding energy of the atom are the means over all electrons of the round, coordinate by coordinate; those of a layer are the means over its electrons.","every history and every layer","Universal over populations.","HeuristicFlow/src/AOS/AOS4EigenAndStd.hpp: 40-94, 144-217")
p("C70","AOS never fails on admissible options","With a finite box of moderate size, a fitness function without NaN, a stable sort and electrons that can be shared out to the layers, initializePop() and any run() calls after it return: no erased electron is read, no index is out of range, no assertion fails, and at most maxGenerations+1 rounds are made.","every random stream, fitness function, box and options","Termination and memory safety for every stream.","HeuristicFlow/src/AOS/AOSBase.hpp","HeuristicFlow/src/AOS/AOS.hpp: 72-139","HeuristicFlow/src/AOS/AOSBoxed.hpp")
p("C71","AOS moves follow the update rule","Every round appends exactly one new electron per electron of the layers, in order. With probability 1 - photonRate it is put at parent + a*(b*best - c*mean), a, b, c drawn from [0,1) per coordinate, with the layer's best electron and mean position if the parent is better than the layer's mean energy, otherwise with bestElectron() and the mean of all electrons, the step divided by the layer's number; with probability photonRate each coordinate moves by at most the learning rate of the box. The result is constrained to the box.","every random stream, fitness function, box, options and moment of a run","The direction of every single step, for every stream of random numbers and every layout of layers.","HeuristicFlow/src/AOS/AOSBase.hpp: 84-102","HeuristicFlow/src/AOS/AOS4EigenAndStd.hpp: 96-131, 219-270")
p("C72","Benchmark functions of any dimension have the documented minimum","rastrigin and sphere are non-negative and zero exactly at the origin, rosenbrock is zero exactly at (1,...,1), Styblinski-Tang is at least -39.1662 n and attains it up to 1e-4 n at (-2.9035,...). Refuted: rosenbrock lacks a square, the Eigen version of Styblinski-Tang returns twice the value, rosenbrock of no variables reads out of range.","every dimension and every real argument","Infinite domain and unbounded dimension.",E+"SOFunctions.hpp: 219-265")
p("C73","Computed benchmark values are never negative and zero at the minimum","In double precision, beale, booth, himmelblau, bukin, levy, sphere, rosenbrock and rastrigin never return a negative number, whatever the arguments (including infinities and NaN) and the rounding; at the documented minimum the computed value is exactly 0 where all intermediate values are representable.","every double argument, every C library","2^128 argument pairs.",E+"SOFunctions.hpp")
p("C74","Two- and three-objective benchmarks are the published ones","Schaffer 1 has the Pareto set [0,2]; Binh-Korn and Chankong-Haimes have the published values where their constraints hold and a penalty elsewhere, so that no forbidden point dominates an allowed one; Poloni is the published formula. Refuted: Schaffer 2 (Pareto set [5,inf) instead of [1,2) and [4,5]), Viennet (second objective never reaches 15), Kursawe (ignores all but two variables), and the fitness is not resized for a fixed-size Var_t.","every real argument","Pareto optimality quantifies over the whole plane.",E+"MOFunctions.hpp: 47-299")
p("C75","DTLZ1-7 have the published front","For every number of variables and objectives the objectives of DTLZ1 sum to (1+g)/2, those of DTLZ2-6 lie on the sphere of radius 1+g, and in the unit cube a point is Pareto optimal for DTLZ1-4 iff its last variables are all 1/2; optimal points of DTLZ7 have their last variables zero. Refuted: DTLZ5/6 have a factor pi/2 too many and negative objectives; DTLZ7 with std containers leaves an objective unset.","every N >= M >= 1, every point","Unbounded dimensions; optimality quantifies over the cube.",E+"MOFunctions.hpp: 305-690")
p("C76","DTLZ8-9 evaluate their constraints","DTLZ8: every objective is the mean of its block of variables plus a penalty above 1000 exactly if its constraint is violated, and nothing outside the variables is read; with a Fitness_t of fixed size (at least three objectives: two are rejected by a static_assert) the same values result. DTLZ9: refuted, always reads past the end.","every N > M >= 1, every point","Unbounded dimensions.",E+"MOFunctions.hpp: 692-880")
p("C77","SOGA settings keep the last accepted value and stay in range","Every setting of a SOGA solver is the last value given for it, or the documented default, and no setter changes another setting; the setters reject exactly the values outside the documented ranges (NaN and infinities included). Refuted: the reference returned by tournamentSize() bypasses the check.","every sequence of setter calls and all argument values","Unbounded sequences of calls; 2^128 argument pairs.","HeuristicFlow/src/Genetic/SOGASelecters.hpp: 185-200, 448-483, 553-573, 640-649, 812-828, 938-966","HeuristicFlow/src/Genetic/GAOption.hpp","HeuristicFlow/src/Genetic/GABase.hpp: 107")
p("C78","The functions and arguments last given are the ones used","After any history of calls (runs included) each of the four functions, the custom arguments and the settings are the last ones given; a solver with functions fixed at compile time behaves like one that was given them at run time. A missing function is called through a null pointer as soon as it is needed. Refuted: a run-time selecting solver switched to Boltzmann without a strength reads an uninitialised number.","every history of calls","Unbounded histories.","HeuristicFlow/src/Global/FunBody.hpp","HeuristicFlow/src/Genetic/GAAbstract.hpp","HeuristicFlow/src/Genetic/SOGASelecters.hpp: 646-649")
p("C79","A SOGA object is usable through any lawful history","Whatever the user does within the rules -- switching methods, options, functions and arguments between runs, initialising and running any number of times -- nothing undefined happens and no assertion fails; with Tournament, MonteCarlo, LinearRank and ExponentialRank every call returns; after a run bestFitness() and result() belong to one individual of the population and nobody in it is better, and all known fitness values are those of the current function if it was not changed since initializePop(); variables (and result()) stay in any region the user's functions keep, with every method. Refuted: after changing function or arguments, run() without initializePop() reports fitness values of the old ones; the queries read uninitialised members before the first run()/initializePop().","every history of calls, random stream and user function","Unbounded histories with arbitrary interleavings of setters and runs.","HeuristicFlow/src/Genetic/SOGA.hpp","HeuristicFlow/src/Genetic/GABase.hpp: 101-205","HeuristicFlow/src/Genetic/SOGASelecters.hpp")
p("C80","A box works once its setters have been called","Whatever was called before, a square continuous box whose last setRange, setDimensions (and setDelta) were accepted initialises variables inside the range, clamps to the nearest point and moves by at most delta; a rectangle does so if the user gave matching shapes and ordered bounds. The setters reject exactly the documented values; a member that was never set is read uninitialised by every operation that needs it. Refuted: rectangles accept min > max and deltas of another size, setDimensions forgets the bounds, accepted dimensions overflow, accepted ranges too wide never initialise inside, delta(r,c) is wrong for row-major matrices.","every history of setter calls and writes through references, every argument, stream and variable","Unbounded histories, all doubles.","HeuristicFlow/src/EAGlobal/BoxConstraint.hpp: 32-124, 140-366, 507-636","HeuristicFlow/src/EAGlobal/SizeBody4BoxConstraint.hpp")
p("C81","The infinite box draws normally, never constrains and moves by at most delta","After setMu, setSigma and setDimensions initialize() fills the variable with successive standard normal draws times sigma plus mu (each operation correctly rounded); applyConstraint() changes nothing; applyDelta() moves one coordinate by at most delta; without the setters the values are uninitialised. It behaves as a continuous box with infinite bounds. mu(), sigma(), delta() and variance() give what was last written by a setter or through a reference, over doubles and floats; the setters reject exactly a sigma or delta that is not positive. Refuted: that sigma and delta are always positive (a write through the reference is not checked).","every history, stream and variable","All draws and all doubles.","HeuristicFlow/src/EAGlobal/BoxConstraint.hpp: 667-755","HeuristicFlow/src/Global/Randoms.hpp: 150-155","HeuristicFlow/src/AOS/AOS.hpp: 164")
p("C82","The thread number","threadNum() is the last positive number given to setThreadNum, the hardware's before; a parallel loop with at least as many items as threads processes every item exactly once in chunks of at most items/threads, under every schedule. Refuted: a loop keeps the thread number of its first execution; with fewer items than threads the chunk size is 0; unknown hardware concurrency divides by zero.","every history of calls and loops, every number of items and threads","Unbounded histories, all schedules.","HeuristicFlow/src/Global/Threading.hpp","HeuristicFlow/src/Genetic/GABase.hpp: 224-225","HeuristicFlow/src/Genetic/NSGABase.hpp: 108-109","HeuristicFlow/src/AOS/AOSBoxed.hpp: 111-112","HeuristicFlow/src/PSO/PSO4Eigen.hpp: 87-88","HeuristicFlow/src/PSO/PSOAbstrcat.hpp: 289-290")
p("C83","A PSO solver's box keeps the last accepted setting","Bounds and velocity limit of a PSO solver are the last ones given by setRange/setPVRange/setMaxVelocity or through the references, the dimension the last one given; the setters reject exactly empty or reversed ranges and non-positive velocities and the accessors return what was set (posMax() of a square box: see C32); PSOOption has its documented defaults. Refuted: bounds written through the references are never checked; setRange and setPVRange of a rectangle box name a constant that does not exist and cannot be instantiated.","every sequence of setter calls, every kind of box","Unbounded sequences of calls.",PS+"PSOOption.hpp",E+"BoxConstraint.hpp","HeuristicFlow/src/PSO/PSO4Eigen.hpp: 30-83")
p("C84","The functions and arguments last given are the ones PSO uses","After any history of calls the initialisation and fitness functions, the custom arguments, the box and the option are the last ones given; functions fixed at compile time behave like the same functions given at run time; anything called before what it needs was given is undefined behaviour (a null call or an uninitialised read) and nothing else is. Refuted: the reserved symbol for a default initialisation function is accepted at run time and then called.","every history of calls","Unbounded histories.","HeuristicFlow/src/PSO/PSOParameterPack.hpp","HeuristicFlow/src/PSO/PSOAbstrcat.hpp","HeuristicFlow/src/PSO/PSO.hpp")
p("C85","A PSO object is usable through any lawful history","Whatever the user does within the rules -- changing box, functions, arguments and option between runs, initialising and running any number of times -- every call returns; the population has the size of the option at the last initializePop(); after a run the generation count and best are as documented; if functions and arguments were not changed since initializePop(), gBest is the best of everything evaluated since then; particles moved at least once under the current box are inside it. Refuted: after changing the box gBest may lie outside it; after changing the fitness function gBest's fitness is stale.","every lawful history, random stream, fitness function","Unbounded histories; every stream.","HeuristicFlow/src/PSO/PSOAbstrcat.hpp","HeuristicFlow/src/PSO/PSO4Eigen.hpp","HeuristicFlow/src/PSO/PSO.hpp")
p("C86","An AOS object uses the box, option, functions and arguments last given","After any history of calls the option, box, functions and arguments of an AOS solver are the last ones given, and a run uses exactly the bounds, delta and dimension the box's accessors return; functions fixed at compile time behave like the same functions given at run time; the option starts with its documented values. More layers than electrons is an assertion failure at initializePop(); run(), the best electron and the counters before initializePop(), a null function, no electrons, and the energy of an electron not yet computed are undefined. Refuted: the reserved symbol for the default initialisation is accepted at run time, and using it aborts.","every history of calls, every box (square, rectangle, infinite)","Unbounded histories.","HeuristicFlow/src/AOS/AOSBoxed.hpp","HeuristicFlow/src/AOS/AOSParameterPack.hpp","HeuristicFlow/src/AOS/AOSOption.hpp","HeuristicFlow/src/AOS/AOS.hpp")
p("C87","An AOS object is usable through any lawful history","Whatever the user does within the rules -- changing box, option, functions and arguments between runs, initialising and running any number of times, with a bounded or the infinite box -- every call returns, for every random stream; all positions ever held stay in the region the user promised; after a run the best electron is one of the electrons and none is better, all are evaluated, their number is at most electronNum, and a limit has been reached; the best energy never gets worse from run to run; energies are values of the current function if it was not changed since initializePop(); new positions lie in the box in force. Refuted: electrons found before the box was changed may lie outside it, energies computed before the function was changed are stale.","every lawful history, random stream, fitness function","Unbounded histories; every stream.","HeuristicFlow/src/AOS/AOSBase.hpp","HeuristicFlow/src/AOS/AOSBoxed.hpp","HeuristicFlow/src/AOS/AOS4EigenAndStd.hpp","HeuristicFlow/src/AOS/AOS.hpp")
p("C88","An NSGA2/NSGA3 object uses the settings, functions and precision last given","After any history of calls the option, functions, arguments and reference point precisions are the last ones given; functions fixed at compile time behave like the same functions given at run time. referencePoints() of NSGA3 is, from initializePop() until the next one, the lattice of the precision in force at that initializePop(), and referencePointCount() right after it is their number. run() before initializePop(), the counters before run(), bestFitness() before evaluation and initializePop() of a single-layer NSGA3 without a precision are undefined. Refuted: a precision set after initializePop() changes referencePointCount() but not referencePoints().","every history of calls, every number of objectives","Unbounded histories.","HeuristicFlow/src/Genetic/NSGA2.hpp","HeuristicFlow/src/Genetic/NSGA3.hpp: 96-106","HeuristicFlow/src/Genetic/NSGA3Base.hpp: 85-230","HeuristicFlow/src/Genetic/NSGA3Abstract.hpp: 74","HeuristicFlow/src/Genetic/GABase.hpp: 101-150","HeuristicFlow/src/Global/FunBody.hpp")
p("C89","An NSGA2/NSGA3 object is usable through any lawful history","Whatever the user does within the rules -- changing option, functions, arguments and precision between runs, lowering the population size, initialising and running any number of times -- every call returns; after a run the population has populationSize evaluated individuals, all generations were done, paretoFront() is exactly the nondominated individuals of the population (never empty, each once) and bestFitness() the ideal point; paretoFront() is readable after any history; fitness values are those of the current function if it was not changed since initializePop(); variables stay in any region the user's functions keep. Raising populationSize without initializePop() is undefined. Refuted: after changing arguments, a run keeps stale fitness values.","every lawful history, random stream, user function, number of objectives","Unbounded histories; every stream.","HeuristicFlow/src/Genetic/MOGAAbstract.hpp: 84-145","HeuristicFlow/src/Genetic/NSGABase.hpp","HeuristicFlow/src/Genetic/NSGA2.hpp","HeuristicFlow/src/Genetic/NSGA3.hpp","HeuristicFlow/src/Genetic/GABase.hpp")
p("C90","NSGA2 never loses the best value of an objective","If populationSize is at least twice the number of objectives, selection keeps, for every objective, an individual with the best value of it in the population (provided individuals sharing that value do not differ in another objective); so bestFitness() is unchanged by selection, and the ideal points recorded during a run never get worse in any objective. Refuted without either condition: a smaller population, or a tie, can lose the best value.","every population with values up to 2^1000, every random stream, every std::sort, every run","All populations and every order std::sort may leave equal elements in.","HeuristicFlow/src/Genetic/NSGA2.hpp: 95-278","HeuristicFlow/src/Genetic/NSGABase.hpp: 105-171","HeuristicFlow/src/Genetic/MOGAAbstract.hpp: 135-145")
p("C91","Boxes over floats","A box with float coefficients initialises every coefficient inside [min, max] whatever the finite bounds (there is no range too wide, unlike doubles); applyConstraint moves every coefficient to the nearest point of the box; applyDelta changes one coordinate by at most delta (by exactly +-1 before clamping for discrete and compile-time boxes) and stays in the box; the Gaussian box over floats computes in double and rounds once. Refuted: that a +-1 step moves a coordinate which has room (from 2^24 on it is lost), and that initialise never draws the upper bound.","every box with float bounds and delta, every decision variable, every random stream","All 2^32 values of every bound and coefficient and every draw, with double rounding between float and double.","HeuristicFlow/src/EAGlobal/BoxConstraint.hpp: 36-85, 606-664, 667-755")
p("C92","The fitness function need only be meant for the region the search stays in","If the user's initialisation, crossover and mutation functions stay in a region of decision variables (for the arguments in force at each initializePop() and run()), then every variable, result() included, lies in the region, and the guarantees of C79 (SOGA) and C89 (NSGA2/3) -- nothing undefined, every call returns, what is left after a run, known fitness values belong to the current function -- need the fitness to be a number (for NSGA2: of moderate size) only inside the region.","every region, every history of calls, random stream and user function","The fitness may be NaN or anything outside; that it is never asked there is a statement about all histories.","HeuristicFlow/src/Genetic/GABase.hpp: 101-310","HeuristicFlow/src/Genetic/SOGA.hpp","HeuristicFlow/src/Genetic/NSGA2.hpp")
p("C93","When arithmetic crossover keeps a box","A ratio between 0 and 1 keeps a box with finite bounds (two parents inside give two children inside) exactly if the lowest and the highest corner, each crossed with itself, stay inside. With the ratio 1/2 every box whose bounds are zero or at least 2^-1021 in magnitude is kept; with the default ratio 1/5 the boxes [-5,5] and [0,1] of any dimension are. Refuted: that the default ratio keeps [0,3], and that 1/2 keeps boxes with subnormal bounds.","every ratio in [0,1], every box with finite bounds, every pair of parents","All pairs of doubles in the box, with rounding.","HeuristicFlow/src/Genetic/Miscellaneous4GA.hpp: 35-69, 395-403")
p("C94","The parallel loops","For every team of threads, every assignment of the iterations to the threads (each iteration to one thread; OpenMP's chunks give such assignments) and every interleaving of the threads' memory accesses: the parallel evaluation of a GA population, of an AOS population and of a PSO swarm, and the parallel counting of dominating members in NSGA2/NSGA3, have no data race, finish, and leave exactly what the sequential loop leaves. Refuted: that the parallel movement of a PSO swarm is free of data races -- any two threads with a particle each can be brought to access the one global random generator at the same time; it is the only location they race on, and one thread alone does what the sequential loop does.","every population, fitness function, team, assignment and interleaving","Tests see a few interleavings; race freedom is about all of them.","HeuristicFlow/src/Genetic/GABase.hpp: 213-231","HeuristicFlow/src/Genetic/NSGABase.hpp: 105-118","HeuristicFlow/src/PSO/PSOAbstrcat.hpp: 287-294","HeuristicFlow/src/PSO/PSO4Eigen.hpp: 85-110","HeuristicFlow/src/AOS/AOSBoxed.hpp: 100-119")
p("C95","The shipped multi-objective example programs","The programs NSGA2_ZDT3, NSGA2_Kursawe, NSGA2_Binh_And_Korn and NSGA3_DTLZ7 (the last for every number of generations and population size that can be typed in) finish for every stream of random numbers; they end with the configured number of individuals and generations (and, where recording is on, of records), every individual lies in the region of the problem and carries the objective values of its own variables, and what is printed as the Pareto front is exactly the set of non-dominated individuals; none of the functions they install ever fails. Only bounds on sin, exp and pow are assumed of the C library. Refuted: that Binh_And_Korn respects the box it sets: two individuals at y = 3 have children at y = 3 + 2^-51 (and that is the farthest anyone gets).","every random stream, library std::sort and (for DTLZ7) every typed-in size","A run of the program is one stream; the examples have 200 to 600 individuals over 2000 generations.","test/NSGA2_ZDT3.cpp","test/NSGA2_Kursawe.cpp","test/NSGA2_Binh_And_Korn.cpp","test/NSGA3_DTLZ7.cpp")
p("C96","Why a run stops, and the shipped single-objective genetic example programs","After any lawful history that ends with run(), either all maxGenerations generations were done or maxFailTimes is not 0 and failTimes() exceeds it; so with maxFailTimes 0 or at least maxGenerations a run always lasts maxGenerations generations. SOGA_TSP finishes for every number of points from 2 on and every random stream, and the fitness it prints is the length of a tour that the printed keys describe, the shortest in the population. SOGA_Ackley, by any selection method but stochastic universal sampling, ends with 50 individuals in the square [-5,5]^2, prints the value of the Ackley function at a member that nobody beats and stops as said; with four of the methods it always finishes, a wrong choice aborts. None of the functions the programs install ever fails on what the algorithm passes to it. Refuted: that the mutation of SOGA_TSP reverses the segment it picks (a pair in the middle stays, so a segment of two is not changed at all); that it is defined for a single point; that it runs 30 generations per point for any number of points (it wraps around).","every history of calls; every random stream, library std::sort, number of points and selection method","A run of the program is one stream, one set of points and one order std::sort leaves equal keys in.","test/SOGA_TSP.cpp","test/SOGA_Ackley.cpp","HeuristicFlow/src/Genetic/GABase.hpp: 171-205","HeuristicFlow/src/Genetic/GAOption.hpp")
p("C97","PSO asks its fitness function only where the search may go; why a PSO run stops","If initializePop() makes positions in a region and, at each run(), the positions between the bounds belong to it, then since that initializePop() the fitness function was evaluated in the region only; every particle, every best position and globalBest() are in it, and if the function is a number there, what C85 says of the best values holds whatever the function does outside. With the built-in initialisation and a proper box left alone since, the box is such a region. After any lawful history that ends with run(), either all maxGeneration generations were done or maxFailTimes is not 0 and failTimes() exceeds it; with maxFailTimes 0 or at least maxGeneration all are done.","every region, lawful history of calls, random stream and fitness function","That a function is never asked outside, and why a loop ends, are statements about all histories.","HeuristicFlow/src/PSO/PSOAbstrcat.hpp","HeuristicFlow/src/PSO/PSO4Eigen.hpp","HeuristicFlow/src/PSO/PSO.hpp")
p("C98","The shipped particle swarm example programs","PSO_RastriginFun always finishes after 1000 generations with 400 particles in the box, where alone the function was evaluated; what it prints is the finite, non-negative value of the Rastrigin function at globalBest(), and no position ever evaluated has a lower one. PSO_TSP finishes for every number N of points from 1 to 42949672, all points and every random stream; both numbers it prints are lengths of tours along which the keys, as floats, never fall; the second is at most the first and at most the length of any tour evaluated, at most 8(N-1), and the run stops after 50N generations or more than 5N failures in a row. No function they install fails on what it is asked. Other N: assertion failure up to 0, signed overflow above 42949672. Refuted: that the tour follows the order of the keys themselves (they are rounded to float before sorting).","every random stream, library std::sort, number and position of the points; only bounds on cos are assumed of the C library","A run of the program is one stream, one set of points and one order std::sort leaves equal keys in.","test/PSO_RastriginFun.cpp","test/PSO_TSP.cpp","HeuristicFlow/src/PSO/PSO.hpp","HeuristicFlow/src/EAGlobal/SOFunctions.hpp: 215-226")
p("C99","The shipped AOS example program","AOS_Rastrigin finishes for every random stream: 50 electrons in [-5,5]^3, each with the Rastrigin value of its place; the number printed is the energy of bestElectron(), finite and not negative, and no electron evaluated in any round has a lower one. It stops after 50 generations, or earlier with the early stop counter at 20 or more; the record has one entry per generation plus one, never rises and ends with the number printed. The box has exactly the bounds that were encoded into its type. In any AOS run from initializePop(), no electron ever evaluated is better than bestElectron() at the end; at the default sizes the layer shares never run past the electrons, for every exp and every order of summation right to a thousandth.","every random stream, std::sort that keeps equal elements in order at the front, exp and Eigen sum within a thousandth, cos within bounds","A run of the program is one stream, one C library and one summation order.","test/AOS_Rastrigin.cpp","HeuristicFlow/src/AOS/AOS.hpp","HeuristicFlow/src/AOS/AOSBase.hpp","HeuristicFlow/src/EAGlobal/BoxConstraint.hpp: 477-501, 652-664","HeuristicFlow/src/Global/BinaryCode.hpp")
p("C100","References and iterators of the packed bit container","In a multiBitSet holding l, the loop from begin() to end() reads exactly l and the loop back from end() reads it in reverse; assigning f of every element through the iterator leaves f(x) mod 2^eleBits at every place and no other container changed. A reference reads and writes exactly the element at its index; assigning one reference to another copies the element, within and between containers. References stay attached to their index across writes, push_back, pop_back and shrink_to_fit within the capacity. Iterator +, -, ++, --, [] and comparison obey integer arithmetic; end()[-k] is the k-th element from the end; isNull() is false exactly for an index below size(). Refuted: that a null iterator cannot be read (there is no check: after pop_back the removed element is read, on an empty container it is undefined). The program test/multiBitSet.cpp ends for every random stream without undefined behaviour or failed assertion and prints 25 elements below 128, capacity 27, three blocks, first equal to last.","every element width 1..64, container, values, function, index and offset; every history of operations within capacity; every random stream and content of fresh memory","Elements straddle block boundaries at positions depending on width and index; a test tries one width.","HeuristicFlow/src/SimpleMatrix/MultiBitSet.hpp: 53-336, 440-447, 573-587","test/multiBitSet.cpp")
p("C101","Discrete and float boxes as objects","A DiscretBox (integers of any width, booleans, floats) or ContinousBox over floats works once its last setRange and setDimensions were accepted, whatever was called before: dimensions() is the product set, initialize gives that many values inside the range, applyConstraint moves each value to the nearest point of the box and leaves inside values alone, applyDelta changes exactly one coordinate by one step (integers: one up or down or held at the bound; booleans: flipped; ContinousBox: within delta) and stays inside; a variable of another size is rejected. Boxes with the range in their type behave the same. setRange is rejected exactly when min is not below max (square) or the sizes differ (rectangle), setDelta when not positive, setDimensions when not positive. A square integer box used before setRange or setDimensions is undefined. Refuted: that a rectangle's setRange checks the order of the bounds.","every integer type up to 64 bits, shape, history of calls, range, variable and random stream","The members are set by separate calls in any order and number; nothing is initialised by the constructor.","HeuristicFlow/src/EAGlobal/BoxConstraint.hpp: 32-366, 440-664","HeuristicFlow/src/EAGlobal/SizeBody4BoxConstraint.hpp")
p("C102","The shipped program test/Boxes.cpp","Every run of the program ends without an assertion failing, and what it prints is as the boxes say: box0's variable of four 0.5 is left alone by applyConstraint and applyDelta moves exactly one coordinate by at most 0.6, back into [0,1]; box1 gives twenty integers in [-3,4]; box2 (3 by 6, bounds edited in place) reports the bounds -2-idx%5 and 6+idx%5 and a tenth of their difference as delta, initialises inside and moves one coordinate by at most its own delta and stays inside; box3 flips exactly one of ten booleans; box4 moves one of twelve coordinates by at most 1e7; box5 reports 6 dimensions and yields only -3 or -2 (the text announces [-3,6]); box6 reports -10, 5 and 0.5 after the encode/decode round trip, and its applyDelta moves one coordinate by one, not by 0.5, and stays inside.","every random stream and every normal distribution","The program prints random values; a run shows one stream.","test/Boxes.cpp","HeuristicFlow/src/EAGlobal/BoxConstraint.hpp","HeuristicFlow/src/Global/ConvertDoubleAndBinCode.hpp")
p("C103","Matrices of class-type elements: object lifetimes","For elements of class type (such as std::string) a MatrixDynamicSize made with r rows and c columns holds r*c default elements; as long as no call needs more room than the capacity, element assignment, fill, resize, reserve, assignment from another dynamic or a fixed-size matrix are all defined, do what they say to exactly the elements they name, keep the capacity, and destroying the matrix destroys every object made exactly once; moving leaves an empty matrix. Assigning a dynamic matrix to a fixed-size one is accepted exactly when the shapes agree and then copies every element. Refuted: that resize may grow a matrix (beyond the capacity no element is constructed, so reading, assigning, filling, copying into it and destroying it are undefined and the old objects are never destroyed; so a default constructed matrix can never be used), and that reserve makes room. The program test/simpleMatrix.cpp is defined and prints rua!, rue~, then rue~, rue~.","every element type, shape, history of calls and argument","Object lifetimes are invisible in a value test; a leak or a read of raw memory may go unnoticed.","HeuristicFlow/src/SimpleMatrix/MatrixDynamicSize.hpp","HeuristicFlow/src/SimpleMatrix/MatrixFixedSize.hpp: operator=, fill","HeuristicFlow/src/SimpleMatrix/MatrixBase.hpp: operator=","test/simpleMatrix.cpp")
p("C104","The programs testEncoder.cpp, MinMaxCompileTime.cpp and testFunctions.cpp","printBin prints the bits of an unsigned integer from the highest to the lowest, broken after the first and the twelfth (for floats too, so not at the end of their exponent). For every finite or infinite number that encode does not treat wrongly the two lines 'correct' and 'computed' are the same IEEE pattern, and for the normal doubles whose mantissa is all ones they differ. testEncoder.cpp prints ten pairs of equal lines, the patterns of its ten literals (each correctly rounded). MinMaxCompileTime.cpp prints -114514 and 1919810. testFunctions.cpp prints a 250 by 250 table of the egg holder function on equally spaced points of [-512,512], all values within [-1071,1071].","every bit pattern; the programs have no input","One program checks ten numbers by eye; the statement is for all patterns.","test/testEncoder.cpp","test/MinMaxCompileTime.cpp","test/testFunctions.cpp","HeuristicFlow/src/Global/ConvertDoubleAndBinCode.hpp: encode","HeuristicFlow/src/EAGlobal/SOFunctions.hpp: eggHolder")
p("C105","Copying, assigning and destroying SOGA solvers","A solver may be copied, assigned and destroyed at any point of any history. The copy has the same settings, functions, arguments, counters and record and equal individuals in its own population, answers bestGene(), result() and bestFitness() as the original, and no other solver notices. A solver whose best individual belongs to its own population -- every solver after initializePop() with a positive population size or after run() -- is independent: whatever is done to other solvers changes none of its answers, and its calls do what they would do alone. A fresh copy is not: its bestGene() is the original's individual, so the original's initializePop() changes the copy's result(), and once the original is destroyed the copy's bestGene(), result() and bestFitness() are undefined and run() on it never completes, until it is initialised or assigned again.","every history of constructions, copies, assignments, destructions and calls on any number of solvers, all selection methods, options, user functions and random streams","The tests never copy a solver; the failure needs a particular order of copies and destructions and may go unnoticed when freed memory is still readable.","HeuristicFlow/src/Genetic/SOGA.hpp: _bestGene, ~SOGA, bestGene, result, bestFitness, initializePop","HeuristicFlow/src/Genetic/SOGASelecters.hpp: __impl___impl_select","HeuristicFlow/src/Genetic/GABase.hpp: _population")
p("C106","Copying, assigning and destroying NSGA2 and NSGA3 solvers","A multi-objective solver may be copied, assigned and destroyed at any point of any history. The copy has the same settings, functions, arguments, reference points, counters and record and equal individuals in its own population, and reports the same Pareto front; no other solver notices. run() and initializePop() give every solver, also a copy whose original is gone, a front made of its own individuals -- after run() exactly the nondominated ones -- and such a solver is independent: whatever is done to other solvers changes neither its members nor its front. run() does not depend on the front left from before. A fresh copy with a nonempty front is not independent: its pfGenes() point to the original's individuals, so a further run() of the original, or its destruction, makes paretoFront() of the copy undefined until the copy is run, initialised or assigned again.","every history of constructions, copies, assignments, destructions and calls on any number of solvers, NSGA2 in both directions and NSGA3 with one or two layers, all options, user functions and random streams","The tests never copy a solver; the failure needs a particular order of copies, runs and destructions and may go unnoticed when freed memory is still readable.","HeuristicFlow/src/Genetic/MOGAAbstract.hpp: _pfGenes, paretoFront, pfGenes, initializePop","HeuristicFlow/src/Genetic/NSGABase.hpp: updatePF","HeuristicFlow/src/Genetic/NSGA2.hpp: __impl_select, ~NSGA2","HeuristicFlow/src/Genetic/NSGA3Abstract.hpp: __impl_select","HeuristicFlow/src/Genetic/GABase.hpp: _population")
p("C107","Copying, assigning, moving and destroying AOS solvers","An AOS solver may be copied, assigned, moved and destroyed at any point of any history. A copy has the same settings, functions, arguments, counters, record and binding values, equal electrons of its own, and shows the same best electron and layers; no other solver notices. A moved solver keeps everything, and move assignment replaces a live solver by the source, freeing only the old electrons of the destination (so a solver that points at those has no best electron any more, and moving a copy back onto its original loses the best electron); std::swap exchanges two solvers and no third one notices. A solver that points at its own electrons -- every solver after initializePop() or run() -- is independent of all others and runs as if alone; initializePop() recovers any copy. A fresh copy of an initialised solver is not independent: bestElectron() is the original's. While the original is untouched and has been run, run() on the copy continues from the copied state as if the best electron were its own; once the original is destroyed or initialised again, bestElectron() and run() of the copy are undefined, and if the original was only initialised, run() on the copy reads an energy that was never written.","every history of constructions, copies, assignments, moves, swaps, destructions and calls on any number of AOS solvers, all boxes, options, user functions and random streams, both record options and fitness directions","The tests never copy a solver; the failure needs a particular order of copies, runs and destructions and may go unnoticed when freed memory is still readable.","HeuristicFlow/src/AOS/AOSBoxed.hpp: _electrons, _layers, _atomBestPtr, bestElectron, layers","HeuristicFlow/src/AOS/AOS4EigenAndStd.hpp: __impl_computeAtomBSBELE","HeuristicFlow/src/AOS/AOSBase.hpp: initializePop, __impl_run","HeuristicFlow/src/AOS/AOS.hpp: __impl_selectAndMakeLayers")
p("C108","Copying PSO solvers","A PSO solver may be copied, assigned, swapped and destroyed at any point of any history. A copy or an assigned solver equals its source in every member; std::swap exchanges two solvers; nothing that happens to other solvers, its original and its copies included, changes a solver; a copy goes on exactly as its original would with the same random draws. Every solver of the program is in the state that its own calls, those inherited through copies included, give a solver that is alone, so everything that holds of one PSO solver holds of copies. Nothing is undefined but using a solver that is not alive and what is undefined for a solver that is alone.","every history of constructions, copies, assignments, destructions and calls on any number of PSO solvers, all boxes, options, user functions and random streams, both record options and fitness directions","The tests never copy a solver, and the other solvers of the library are not safe to copy (C105-C107); independence must hold for every interleaving of calls.","HeuristicFlow/src/PSO/PSOAbstrcat.hpp: PSOAbstract, Point, Particle, _population, gBest","HeuristicFlow/src/PSO/PSO.hpp: PSO","HeuristicFlow/src/PSO/PSOParameterPack.hpp: PSOParameterPack","HeuristicFlow/src/PSO/BoxWithVelocity.hpp: Box4PSO")
p("C109","The names of the enumerators and the menu of SOGA_Ackley","Enum2String gives every enumerator of the six enumerations a name that no other of its kind has; record option, fitness option and selection method are printed as they are written in a program. The menu of SOGA_Ackley has exactly ten lines, one for each selection method, and typing the number of a line makes the method named there the one used and changes no other setting; any other number fails an assertion. Enum2String of a number that is no enumerator is undefined for record option, fitness option, box shape and encoding. Refuted: that an unknown selection method is told apart from RunTimeSelectMethod.","every enumeration, every number, every state of the settings","All numbers, not only enumerators.","HeuristicFlow/src/Global/Enumerations.hpp","HeuristicFlow/src/Genetic/SOGASelecters.hpp: 936-970","test/SOGA_Ackley.cpp: 45-60")
p("C110","The layers of an AOS solver after a run","After run() every electron of electrons() is in exactly one layer of layers(), once. layerBestState() and layerBestEnergy() of a layer that is not empty are the state and energy of one of its electrons, which no electron of that layer or of a later one beats. Only the first layer can be empty, and for an empty layer both accessors abort the program (at() throws in a noexcept function).","every AOS solver, history of rounds and options, run and layer","The layer's best index is never computed for the layers a user sees; that it is right rests on the order in which the layers were filled, for every population.","HeuristicFlow/src/AOS/AOSBoxed.hpp: 55-67, 84","HeuristicFlow/src/AOS/AOS.hpp: 72-139","HeuristicFlow/src/AOS/AOSBase.hpp: 104-125")
with open('/verif/properties.jsonl','w') as f:
    for x in P: f.write(json.dumps(x)+"\n")
print(len(P))

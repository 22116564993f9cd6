{
 "C01": {
  "note": "Terminates within maxGenerations+1 rounds; the SIZE_MAX corner is refuted separately."
 },
 "C09": {
  "note": "Exact size for nine methods (EliteReserved: max(populationSize, eliteNum)); StochasticUniversal K or K+1 under a spread of 2^-900, refuted on equal or nearly equal fitness."
 },
 "C13": {
  "note": "Whole runs free of UB and Abort for eight methods (StochasticUniversal as long as its population, which may grow fourfold per round, fits an int); Truncation and EliteReserved characterised exactly; the violation is exhibited in a whole run."
 },
 "C14": {
  "note": "For every stream, except RouletteWheel/EliteReserved which need streams that keep producing small draws (refuted otherwise); endless selections on overflow proved for every stream."
 },
 "C46": {
  "note": "Exact: fields of every accepted code, round trip iff the amplified significand is below 2^54, 2^-42 accuracy then; the overflow is refuted by 2 and by the documented example."
 },
 "C47": {
  "note": "n! mod 2^64; exact iff n<=20; NchooseK exact for N<=20, K<=N; refuted at N=21; non-terminating for K>N."
 },
 "C19": {
  "note": "Refuted as stated (layers are not the classical fronts); the true rule (layer = equal number of dominators, in increasing order) is proved for all populations."
 },
 "C20": {
  "note": "NSGA-II: exact size, success on tame fitness (finite, |f|<=2^1000), UB with fewer individuals, whole run from initializePop."
 },
 "C23": {
  "note": "Distances are taken over the whole population; per-layer reading refuted by example."
 },
 "C65": {
  "note": "Proved for RouletteWheel, LinearRank, ExponentialRank, Boltzmann (with the sign of its strength matching the direction) and EliteReserved; refuted for Boltzmann with the wrong sign (it ignores the direction) and for Probability (the best of three is always eliminated)."
 },
 "C66": {
  "note": "Every weighted method's survivors are the winners of a contest of draws on the documented weights; interval reading in the reals with explicit rounding error; StochasticUniversal keeps everybody whose weight reaches total/populationSize."
 },
 "C68": {
  "note": "All finite doubles; NaN counts as 0."
 },
 "C29": {
  "note": "Positions proved in the box for every history; velocities in [-velocityMax, velocityMax] for moderate boxes; NaN velocity refuted for huge boxes (overflow), and a NaN velocity then stays."
 },
 "C30": {
  "note": "Eigen PSO; gBest holds an unevaluated particle until the first round (refuted there); NaN fitness freezes pBest."
 },
 "C31": {
  "note": "Exact stop rule, bound, totality, record; refuted at maxGenerations = SIZE_MAX and for an empty population."
 },
 "C32": {
  "note": "Square box: posMax() returns the lower bound (refuted); rectangle box proved on the text of setPVRange, which as written cannot be instantiated (isSizeFixed); rectangles set through references: C83."
 },
 "C33": {
  "note": "Survival of bestElectron() needs at most electronNum ties or a stable sort; otherwise it is erased and the next round reads it (refuted with an unstable std::sort)."
 },
 "C34": {
  "note": "The cut positions are those of the documented Gaussian shares; 904238 electrons in 5 layers overrun the layers (refuted)."
 },
 "C35": {
  "note": "Holds as stated."
 },
 "C36": {
  "note": "Box bounds up to 2^800; for DBL_MAX bounds a NaN electron appears (refuted)."
 },
 "C37": {
  "note": "Proved for std containers; for Eigen arrays refuted: addresses are compared."
 },
 "C38": {
  "note": "Proper boxes (min <= max), doubles and the integer types; NaN stays."
 },
 "C39": {
  "note": "Continuous, integer and boolean boxes; refuted: the int range max-min+1 overflows, and ranges beyond 2^24 leave the top value unreachable."
 },
 "C40": {
  "note": "Also: the fixed continuous box ignores the configured delta, and integer boxes touching the limits of the type wrap (refuted)."
 },
 "C52": {
  "note": "Refuted for 8- and 16-bit blocks: an element crossing a block boundary is or-ed onto the old bits."
 },
 "C53": {
  "note": "Refuted beyond 2^24 bits (block count from a rounded float), for copying a container with spare capacity, and for size 0."
 },
 "C54": {
  "note": "push_back/resize beyond the capacity lose bits when the block is wider than a byte (refuted)."
 },
 "C56": {
  "note": "reserve() never increases the capacity and writes past the array when asked for less (refuted)."
 },
 "C57": {
  "note": "Overlapping maps refuted."
 },
 "C58": {
  "note": "Coordinate-wise convex combination up to rounding; leaving the box by rounding is exhibited."
 },
 "C59": {
  "note": "The uniform crossover loses alleles and the dynamic version ignores its probability (refuted)."
 },
 "C63": {
  "note": "SOGA (all methods) and NSGA-II."
 },
 "C64": {
  "note": "SOGA with default operators on a box: arithmetic crossover excluded (see C58)."
 },
 "C67": {
  "note": "Coordinate-wise, factors non-negative, moderate size."
 },
 "C69": {
  "note": "The std version's layer energy is the first electron's energy divided by the number of electrons (refuted)."
 },
 "C70": {
  "note": "The conditions are those whose violation is refuted in C33, C34 and C36; the default options satisfy them."
 },
 "C41": {
  "note": "All 2^64 codes; the specification is Flocq b64_of_bits with the NaNs identified."
 },
 "C42": {
  "note": "All 2^32 codes."
 },
 "C43": {
  "note": "Complete case analysis over all codes: exact for every non-NaN number except -0 and the normal numbers with an all-ones mantissa, where the claim is refuted (successor is returned)."
 },
 "C44": {
  "note": "As C43; additionally +infinity is encoded as -infinity (refuted)."
 },
 "C25": {
  "note": "Lattice proved up to 2^-53 per coordinate (2^-52 for the scaled inner layer); correctly rounded coordinates refuted; unset precision is undefined behaviour."
 },
 "C26": {
  "note": "Holds up to M+p-1 = 20; refuted from 21 on (factorial overflow, points silently dropped)."
 },
 "C27": {
  "note": "Eigen reductions, determinant and inverse are parameters (lin_ops)."
 },
 "C28": {
  "note": "Minimal among the computed distances; the formula is the exact squared line distance over the reals; a constant objective makes everything NaN (refuted)."
 },
 "C88": {
  "note": "Whole object, every history of calls; the refuted theorem records that referencePointCount() and referencePoints() disagree after setting a precision without initializePop()."
 },
 "C89": {
  "note": "Lawful calls are spelled out in MOGAObjSpec.v; the refuted theorem records stale fitness values after changing the arguments between runs."
 }
}
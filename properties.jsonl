{"id": "C01", "title": "Base64 round trip", "statement": "Decoding the base64 text that the library produced for a byte string gives back exactly that byte string.", "quantifier": "every byte string of every length", "why_tests_cant": "The set of byte strings is infinite and the three residues of the length modulo 3 interact with every byte value.", "anchors": ["src/PsiBase64.h: PsiBase64::Encode, PsiBase64::Decode", "src/PsiBase64.cpp"]}
{"id": "C02", "title": "Base64 output is standard base64", "statement": "The text produced by Encode is the RFC 4648 encoding: length 4*ceil(n/3), every character in the base64 alphabet or '=' padding, each group of six input bits mapped to its alphabet character in order.", "quantifier": "every byte string", "why_tests_cant": "Tests check finitely many strings; other programs must be able to decode every output.", "anchors": ["src/PsiBase64.h: PsiBase64::Encode::encode_"]}
{"id": "C03", "title": "Bit counting", "statement": "countKernighan(w) and count(w) both return the number of one bits of w, and countKernighan terminates.", "quantifier": "every 64-bit word", "why_tests_cant": "2^64 inputs cannot be enumerated.", "anchors": ["src/BitManip.h: countKernighan, count"]}
{"id": "C04", "title": "Default load balancer covers every task exactly once", "statement": "For any number of tasks and any positive number of threads, the task numbers below the number of tasks handed out over all threads by blockSize/taskNumber are exactly 0..ntasks-1, each once.", "quantifier": "every number of tasks and every positive number of threads", "why_tests_cant": "Two unbounded parameters; off-by-one errors appear only at particular remainders.", "anchors": ["src/LoadBalancerDefault.h", "src/LoadBalancerMpi.h"]}
{"id": "C05", "title": "Weighted load balancer covers every task exactly once and is balanced", "statement": "The weighted balancer assigns every task to exactly one thread, only to threads the pool really starts, and the heaviest thread carries at most average plus one task (nthreads*load <= total + (nthreads-1)*maxweight).", "quantifier": "every weight vector, every positive number of threads and every result std::sort may return for equal weights", "why_tests_cant": "The outcome depends on the tie breaking of an unstable sort and on unbounded weight vectors.", "anchors": ["src/LoadBalancerWeights.h", "src/Sort.h"]}
{"id": "C06", "title": "Parallel loops execute each index exactly once under every schedule", "statement": "parallelFor(start,end,lambda) calls the lambda for every index in [start,end) exactly once, with a thread number below the number of threads, whatever the interleaving of the threads; when the calls for different indices commute the final state does not depend on the interleaving and equals the serial loop's.", "quantifier": "every range, thread count, task body and interleaving of the threads", "why_tests_cant": "A test observes one interleaving; the property is about all of them.", "anchors": ["src/Parallelizer2Pthread.h", "src/Parallelizer2Serial.h", "src/Parallelizer2OpenMP.h", "src/PthreadsNg.h", "src/NoPthreadsNg.h", "src/InterNodeMpi.h"]}
{"id": "C07", "title": "Sort returns the sorted data and the permutation that sorts it", "statement": "After sort(x,iperm): x is in ascending order, iperm is a permutation of 0..n-1, and new x[i] is old x[iperm[i]].", "quantifier": "every vector and every behaviour std::sort may exhibit on equal keys", "why_tests_cant": "std::sort is unstable, so the permutation is not determined by the input.", "anchors": ["src/Sort.h: Sort::sort"]}
{"id": "C08", "title": "Permutations enumerates all permutations in lexicographic order", "statement": "Starting from the constructed object and calling increase() until it returns false visits every distinct rearrangement of the initial data exactly once, in strictly increasing lexicographic order; increase() returns false exactly at the largest arrangement and then leaves the data unchanged.", "quantifier": "every initial vector (also with repeated entries) and every number of calls", "why_tests_cant": "Factorially many states; history property.", "anchors": ["src/Permutations.h: Permutations::increase, largestk, largestl"]}
{"id": "C09", "title": "SumDecomposition lists all compositions", "statement": "SumDecomposition(total,sum) holds exactly the vectors of length total of non-negative integers adding up to sum, each once and in lexicographic order; size() is their number for every selection mode and SEL_INDEX keeps exactly the requested one.", "quantifier": "every total and every sum, every selection mode and index", "why_tests_cant": "Combinatorially many vectors with two unbounded parameters.", "anchors": ["src/SumDecomposition.h: SumDecomposition::reentrant1_"]}
{"id": "C10", "title": "PackIndices pack and unpack are inverse", "statement": "unpack yields x<n and x+y*n = ind for every ind below 2^63 (larger ones are known to fail, see the refuted theorem); pack through an inverse permutation finds the position of the pair; pack after unpack through the identity permutation returns ind.", "quantifier": "every n>0, every index and every permutation", "why_tests_cant": "Unbounded indices and all permutations.", "anchors": ["src/PackIndices.h"]}
{"id": "C11", "title": "split returns exactly the maximal delimiter-free runs", "statement": "split appends to tokens, in order, the maximal non-empty runs of characters that are not delimiters, and nothing else; it always terminates.", "quantifier": "every string and every set of delimiters", "why_tests_cant": "Unbounded strings; boundary delimiters, repeated delimiters and empty strings all matter.", "anchors": ["src/PsimagLite.cpp: split"]}
{"id": "C12", "title": "replaceAll replaces every non-overlapping occurrence, left to right, and terminates", "statement": "replaceAll(str,from,to) returns the pieces of str between the leftmost non-overlapping occurrences of from, joined by to; it terminates even if to contains from.", "quantifier": "every str, from and to", "why_tests_cant": "Termination and completeness quantify over all strings; replacement text containing the pattern is the interesting case.", "anchors": ["src/PsimagLite.cpp: replaceAll"]}
{"id": "C13", "title": "Integer helper functions", "statement": "integerDivision(a,b) returns the exact quotient or throws, never a rounded value; log2Integer(x) is the number of binary digits of x; isAnInteger accepts exactly the non-empty digit strings; isAfloat accepts exactly the strings over digits, sign, dot and e/E with at least one digit.", "quantifier": "every argument", "why_tests_cant": "Unbounded input domain.", "anchors": ["src/PsimagLite.cpp: integerDivision, log2Integer, isAnInteger, isAfloat, atoi, basename"]}
{"id": "C14", "title": "MersenneTwister stream satisfies the generator's recurrence and stays in range", "statement": "For every seed, every state word and every output stays below 2^32, the state index stays below 624, the underlying words satisfy the MT19937 recurrence for ever, operator() lies in [0,1], tempering loses no information, and two generators with equal seeds produce equal streams.", "quantifier": "every seed and every number of calls", "why_tests_cant": "The generator is used for arbitrarily many calls; the state is updated in place, so correctness depends on the update order for the whole history.", "anchors": ["src/MersenneTwister.cpp: seed, generate, random, operator()"]}
{"id": "C15", "title": "MersenneTwister constructed for different ranks gives different streams", "statement": "Generators built with the (seed, rank, nprocs) constructor for two different ranks of one run are seeded differently.", "quantifier": "every seed and every pair of ranks", "why_tests_cant": "A test would have to compare all pairs of ranks for all seeds.", "anchors": ["src/MersenneTwister.cpp: MersenneTwister(unsigned,int,int)"]}
{"id": "C16", "title": "RandomForTests is the minimal-standard generator without overflow", "statement": "From every seed, every intermediate value fits a 32-bit signed int, every produced number lies strictly between 0 and 1, and from the first call on the state is multiplied by 16807 modulo 2^31-1.", "quantifier": "every seed and every number of calls", "why_tests_cant": "2^32 seeds and unbounded histories; signed overflow would be undefined behaviour.", "anchors": ["src/RandomForTests.h"]}
{"id": "C17", "title": "Dense to CRS conversion loses nothing", "statement": "Building a CRS matrix from a dense one (constructor or fullMatrixToCrsMatrix) gives a well formed CRS matrix with the same dimensions and entries which stores no zero; converting back into a freshly created dense matrix gives the original.", "quantifier": "every dense matrix of every size over any coefficient ring", "why_tests_cant": "All shapes and sparsity patterns.", "anchors": ["src/CrsMatrix.h: CrsMatrix(Matrix), fullMatrixToCrsMatrix, crsMatrixToFullMatrix"]}
{"id": "C18", "title": "CRS matrices stay well formed", "statement": "Every CRS matrix produced by a constructor (other than the one from coordinate lists, see C26) or operation from well formed arguments is well formed: row pointers start at 0, are non-decreasing, end at the number of stored entries, columns are in range, and no row stores a column twice.", "quantifier": "every sequence of operations on every matrix", "why_tests_cant": "History property over all operation sequences; later operations index memory without checks.", "anchors": ["src/CrsMatrix.h: checkValidity and all producers"]}
{"id": "C19", "title": "CRS matrix-vector product", "statement": "matrixVectorProduct(x,y) adds A*y to x, touches nothing else, and never reads or writes out of bounds.", "quantifier": "every well formed square matrix and all vectors of matching length", "why_tests_cant": "All sparsity patterns.", "anchors": ["src/CrsMatrix.h: matrixVectorProduct, multiply(matrix,vector)"]}
{"id": "C20", "title": "CRS matrix product", "statement": "multiply(C,A,B) makes C a well formed matrix with the entries of the mathematical product A*B, whatever C was before.", "quantifier": "every pair of well formed matrices with matching inner dimension", "why_tests_cant": "The workspace algorithm has state carried across rows; errors show only for particular patterns.", "anchors": ["src/CrsMatrix.h: multiply"]}
{"id": "C21", "title": "CRS conjugate transpose", "statement": "transposeConjugate(B,A) makes B the conjugate transpose of A, well formed, with sorted columns per row; applying it twice gives back A's entries.", "quantifier": "every well formed matrix, also non-square and with empty rows", "why_tests_cant": "All patterns; the two-pass counting algorithm uses running offsets.", "anchors": ["src/CrsMatrix.h: transposeConjugate"]}
{"id": "C22", "title": "CRS linear combination", "statement": "operatorPlus(A,B,b,C,c) makes A equal to b*B + c*C padded to the larger dimensions, stores no zero in A and leaves A well formed.", "quantifier": "every pair of well formed matrices, of possibly different dimensions, and all coefficients", "why_tests_cant": "Two sparse patterns of arbitrary shape; cancellation.", "anchors": ["src/CrsMatrix.h: operatorPlus, operator+="]}
{"id": "C23", "title": "CRS sum of many matrices", "statement": "sum(A,vec) makes A the entrywise sum of all matrices in vec, whatever the order of their entries.", "quantifier": "every non-empty list of well formed matrices of any dimensions", "why_tests_cant": "Unbounded number of summands.", "anchors": ["src/CrsMatrix.h: sum"]}
{"id": "C24", "title": "CRS Kronecker products", "statement": "externalProduct(A,B,...) makes C the Kronecker product of A and B (in the requested order, with the given permutation), and externalProduct(A,nout,signs,option,perm) the signed tensor product with the identity.", "quantifier": "every pair of matrices, permutation, sign vector and order", "why_tests_cant": "Index arithmetic over all dimensions and permutations.", "anchors": ["src/CrsMatrix.h: externalProduct (both)"]}
{"id": "C25", "title": "Embedding of a diagonal block", "statement": "fromBlockToFull puts the block at the given offset of a larger zero matrix.", "quantifier": "every block, offset and full dimension that fit", "why_tests_cant": "Unbounded dimensions.", "anchors": ["src/CrsMatrix.h: fromBlockToFull"]}
{"id": "C26", "title": "CRS matrix from coordinate lists", "statement": "The constructor from (rows, columns, values) lists gives the matrix whose (i,j) entry is the sum of the values listed for (i,j).", "quantifier": "every list of coordinates", "why_tests_cant": "Any order, repetition and gaps in the rows.", "anchors": ["src/CrsMatrix.h: CrsMatrix(rank,rows,cols,vals)"]}
{"id": "C27", "title": "CRS predicates", "statement": "isHermitian, isDiagonal, isZero and isTheIdentity answer true exactly for matrices with that mathematical property.", "quantifier": "every well formed matrix", "why_tests_cant": "All patterns, including implicitly stored zeros.", "anchors": ["src/CrsMatrix.h: isHermitian, isDiagonal, isZero, isTheIdentity"]}
{"id": "C28", "title": "CRS to dense conversion overwrites the target", "statement": "crsMatrixToFullMatrix(m,crs) makes m equal to crs whatever m contained before.", "quantifier": "every matrix and every previous content of the target", "why_tests_cant": "State left over from any earlier use of the target.", "anchors": ["src/CrsMatrix.h: crsMatrixToFullMatrix, src/Matrix.h: resize"]}
{"id": "C29", "title": "CRS matrix I/O round trip", "statement": "Reading with operator>> (or the serializer) what operator<< (or the serializer) wrote gives back the same matrix, whatever the target held before, and consumes exactly what was written.", "quantifier": "every well formed matrix and every previous content of the target", "why_tests_cant": "All matrices including empty ones, and stale state of the target.", "anchors": ["src/CrsMatrix.h: operator<<, operator>>, write, read"]}
{"id": "C30", "title": "Dense matrix algebra", "statement": "operator(), operators += -= *, product, transposeConjugate, outerProduct and identity implement the mathematical operations; indexes inside the dimensions never leave the storage, and different index pairs address different elements.", "quantifier": "every matrix of every size over any coefficient ring", "why_tests_cant": "All dimensions.", "anchors": ["src/Matrix.h"]}
{"id": "C31", "title": "Dense matrix text round trip", "statement": "Reading a matrix with operator>> from the text operator<< wrote gives the same matrix and consumes exactly that text.", "quantifier": "every matrix, every following text", "why_tests_cant": "All dimensions, including empty ones.", "anchors": ["src/Matrix.h: operator<<, operator>>"]}
{"id": "C32", "title": "SparseVector normalisation", "statement": "sort() keeps the vector represented by the entries, leaves the indices strictly increasing and drops entries that are zero.", "quantifier": "every sequence of additions and every behaviour of std::sort", "why_tests_cant": "Duplicates in any order and any multiplicity; unstable sort.", "anchors": ["src/SparseVector.h: add, sort"]}
{"id": "C33", "title": "SparseVector scalar product and equality", "statement": "On normalised vectors scalarProduct computes the sum over equal indices, and operator== is true exactly when both represent the same entries.", "quantifier": "every pair of normalised sparse vectors", "why_tests_cant": "Merge loop over two arbitrary index sequences.", "anchors": ["src/SparseVector.h: scalarProduct, operator=="]}
{"id": "C34", "title": "SparseRow finalisation", "statement": "finalize appends exactly one entry per distinct column, in increasing column order, carrying the sum of the values added for it, and empties nothing else; matrixVectorProduct-style finalize(y) returns the sum of values times y.", "quantifier": "every sequence of add calls", "why_tests_cant": "Duplicates in any order; unstable sort.", "anchors": ["src/SparseRow.h"]}
{"id": "C35", "title": "SparseRowCached agrees with SparseRow and never overflows its cache", "statement": "For every sequence of add calls the cached row represents the same row as SparseRow and never writes outside its buffers.", "quantifier": "every cache size and every sequence of add calls", "why_tests_cant": "The buffer is grown by doubling; memory safety over histories.", "anchors": ["src/SparseRowCached.h"]}
{"id": "C36", "title": "Lattice connections are symmetric and irreflexive", "statement": "For every geometry, connected(i,j) equals connected(j,i) and no site is connected to itself.", "quantifier": "every lattice size, option and pair of sites", "why_tests_cant": "Unbounded lattices.", "anchors": ["src/Geometry/*.h: connected"]}
{"id": "C37", "title": "Each bond has its own connector slot", "statement": "handle(i,j) gives different values, all below getVectorSize(dir), to different bonds of one direction, so distinct coupling constants never collide.", "quantifier": "every lattice size, boundary condition and pair of connected sites", "why_tests_cant": "Unbounded lattices; periodic boundaries are corner cases.", "anchors": ["src/Geometry/LongChain.h, Ladder.h, LadderX.h, Star.h: handle, getVectorSize"]}
{"id": "C38", "title": "Lattice symmetries are permutations that preserve connections", "statement": "findReflection is an involution and translate a permutation of the sites, both preserving connected for the boundary conditions they apply to.", "quantifier": "every lattice size and every site", "why_tests_cant": "Unbounded lattices.", "anchors": ["src/Geometry/LongChain.h, Ladder.h: findReflection, translate"]}
{"id": "C39", "title": "split partitions the sites", "statement": "Geometry::split divides the sites 0..n-1 into system, first middle, second middle and environment blocks without gaps or overlap, and connectionKind classifies every pair of sites according to those blocks.", "quantifier": "every number of sites and every split the function accepts", "why_tests_cant": "Unbounded sizes.", "anchors": ["src/Geometry/Geometry.h: split, connectionKind"]}
{"id": "C40", "title": "K2NiF4 orbital numbering", "statement": "With two orbitals on the oxygen sites and one on the copper sites, index(site,orbital) is a one-to-one numbering of all (site,orbital) pairs by 0..matrixRank-1. (With three orbitals it is not, see the refuted theorem.)", "quantifier": "every number of sites", "why_tests_cant": "Unbounded lattices.", "anchors": ["src/Geometry/KTwoNiFFour.h: index, matrixRank"]}
{"id": "C41", "title": "Ladder with bath assigns every bath site to one cluster site", "statement": "Every bath site is connected to exactly one cluster site, every cluster site has the requested number of bath sites, and the hopping slot is a one-to-one numbering.", "quantifier": "every cluster size and number of bath sites per cluster site", "why_tests_cant": "Unbounded lattices.", "anchors": ["src/Geometry/LadderBath.h: getClusterSite, connected, handle"]}
{"id": "C42", "title": "Honeycomb neighbours", "statement": "Each site of the honeycomb geometry has at most one neighbour in each of the three directions, and every interior site has exactly three.", "quantifier": "every lattice size", "why_tests_cant": "Unbounded lattices.", "anchors": ["src/Geometry/Honeycomb.h"]}
{"id": "C43", "title": "Input labels are totally preordered", "statement": "The order used for input labels is a strict weak order, so std::map lookups are well defined; labels name@n are ordered by n within a name.", "quantifier": "every triple of label strings", "why_tests_cant": "Transitivity quantifies over triples of arbitrary strings.", "anchors": ["src/InputNg.h: MyCompare"]}
{"id": "C44", "title": "Input files are read back as written", "statement": "An input text made of label=value lines, vector lines and comment lines yields exactly those labels with those values.", "quantifier": "every well formed input text", "why_tests_cant": "Unbounded texts; character-level state machine.", "anchors": ["src/InputNg.h: parseInternal, saveBuffer, findTypeOf"]}
{"id": "C45", "title": "Repeated labels are consumed in order", "statement": "When a label occurs n times in the input, the k-th readline of it returns the k-th value, for k up to n, independently of reads of other labels in between.", "quantifier": "every multiset of labels and every interleaving of reads", "why_tests_cant": "History property over all read sequences.", "anchors": ["src/InputNg.h: adjLabelForDuplicates, readline, cleanLabelsIfNeeded"]}
{"id": "C46", "title": "readFile returns the file content", "statement": "readFile appends exactly the bytes of the file to the data string.", "quantifier": "every file content", "why_tests_cant": "End-of-file handling depends on the content.", "anchors": ["src/InputNg.h: readFile"]}
{"id": "C47", "title": "IoSimple finds the requested instance of a label", "statement": "readline(x,label,level) returns the value of the (level+1)-th occurrence after the current position and LAST_INSTANCE that of the last one; the vector and matrix variants position the stream right after the requested label.", "quantifier": "every file content, position and level", "why_tests_cant": "Unbounded files and positions.", "anchors": ["src/Io/IoSimple.h: In::readline, advance"]}
{"id": "C48", "title": "IoSimple count is correct and leaves the stream rewound", "statement": "count(label) returns the number of occurrences of the label in the file after the current position and rewinds.", "quantifier": "every file content", "why_tests_cant": "Unbounded files.", "anchors": ["src/Io/IoSimple.h: In::count, rewind"]}
{"id": "C49", "title": "Serializer store round trip", "statement": "After any sequence of successful writes and overwrites, reading a name yields the value most recently written under that name.", "quantifier": "every sequence of write and overwrite calls on every name and value", "why_tests_cant": "History property over all sequences of operations.", "anchors": ["src/Io/IoNgSerializer.h: write, overwrite, read"]}
{"id": "C50", "title": "A file that was not closed properly is rejected", "statement": "If the writing process stops at any point before flush, close or destruction, opening the file for reading fails; after close it succeeds.", "quantifier": "every crash point of every sequence of operations", "why_tests_cant": "Crash points cannot be enumerated by tests.", "anchors": ["src/Io/IoNgSerializer.h: writeCanary, readCanary, ctor, open, close, flush"]}
{"id": "C51", "title": "Boolean vectors survive packing", "statement": "Packing a vector<bool> into bytes and unpacking returns the same vector, using total/8+5 bytes (4 for an empty vector), without touching memory outside the buffer.", "quantifier": "every boolean vector shorter than 2^32", "why_tests_cant": "2^n vectors of every length n.", "anchors": ["src/Io/IoNgSerializer.h: convertFromBoolean, convertToBoolean"]}
{"id": "C52", "title": "Prefix (level-order) expressions are evaluated correctly", "statement": "Evaluating the level-order token list of any expression tree gives the value of the tree, whatever follows it in the list.", "quantifier": "every expression tree over the supplied primitives", "why_tests_cant": "All trees.", "anchors": ["src/AST/ExpressionForAST.h", "src/AST/Tree.h", "src/AST/Node.h", "src/AST/PlusMinusMultiplyDivide.h"]}
{"id": "C53", "title": "Predicates mean what their text says", "statement": "A comma separated list of &-separated comparisons is true exactly when one of its items has all its comparisons true.", "quantifier": "every predicate text and every value", "why_tests_cant": "All texts.", "anchors": ["src/PredicateSimple.h", "src/PredicateAnd.h", "src/PredicateAwesome.h"]}
{"id": "C54", "title": "Canonical expressions evaluate to the sum of products they denote", "statement": "An expression a*b+c*d+... is evaluated to the sum of the products of its factors.", "quantifier": "every list of terms of factors", "why_tests_cant": "All expressions.", "anchors": ["src/QuasiCanonical.h", "src/CanonicalExpression.h"]}
{"id": "C55", "title": "Chebyshev polynomials", "statement": "ChebyshevFunction and ChebyshevFunctionExplicit both compute the Chebyshev polynomial of the first kind of every order, and terminate.", "quantifier": "every order m>=0 and every argument in any commutative ring", "why_tests_cant": "All orders; the code uses doubling formulas and closed forms instead of the defining recurrence.", "anchors": ["src/ChebyshevFunction.h", "src/ChebyshevFunctionExplicit.h"]}
{"id": "C56", "title": "Bisection returns a point where the function is small", "statement": "If RootFindingBisection returns x then |f(x)|<tolerance and x lies in the initial interval; it evaluates f at most maxIter+2 times; for a Lipschitz function and enough iterations it does not throw.", "quantifier": "every function, interval, tolerance and iteration limit", "why_tests_cant": "Quantifies over all functions.", "anchors": ["src/RootFindingBisection.h"]}
{"id": "C57", "title": "Akima spline interpolates", "statement": "The spline takes the given value at every node, has matching first derivatives at inner nodes, reproduces straight lines, and refuses arguments outside the interval.", "quantifier": "every set of at least three strictly increasing nodes and all values", "why_tests_cant": "All data sets.", "anchors": ["src/AkimaSpline.h"]}
{"id": "C58", "title": "Tridiagonal to dense", "statement": "buildDenseMatrix produces the Hermitian tridiagonal matrix with the stored diagonal and off-diagonals.", "quantifier": "every size and content", "why_tests_cant": "All sizes.", "anchors": ["src/TridiagonalMatrix.h: buildDenseMatrix"]}
{"id": "C59", "title": "Blocked matrix product equals the unblocked one", "statement": "GemmR computes the same C as one GEMM call, every element of C being written by exactly one tile, for any block size, transposition flags and any schedule of the tiles.", "quantifier": "every m,n,k, block size, number of threads, transposition flags and schedule", "why_tests_cant": "Tile boundaries depend on divisibility; schedules.", "anchors": ["src/GemmR.h"]}
{"id": "C60", "title": "Lanczos vectors are orthonormal and tridiagonalise the matrix", "statement": "In exact arithmetic the vectors stored by the decomposition are orthonormal and the matrix acts on them through the returned tridiagonal coefficients, as long as no beta vanishes; the states built from them by computeOneState and computeAllStatesBelow have the energies returned and are orthonormal; all memory accesses stay in bounds.", "quantifier": "every Hermitian matrix, start vector and number of steps", "why_tests_cant": "Induction over steps; all matrices.", "anchors": ["src/LanczosCore.h: decomposition", "src/LanczosVectors.h: oneStepDecomposition", "src/LanczosSolver.h: computeOneState, computeAllStatesBelow"]}
{"id": "C61", "title": "Vector and stack text round trip", "statement": "Reading a vector or a stack with operator>> from the text operator<< wrote gives the same object and consumes exactly that text.", "quantifier": "every vector and stack, every following text", "why_tests_cant": "All lengths and contents.", "anchors": ["src/Vector.h: operator<<, operator>>", "src/Stack.h"]}
{"id": "C62", "title": "Options", "statement": "In strict mode an option string with an unregistered option is rejected; otherwise isSet(o) is true exactly when o is one of the comma separated options; in disabled mode nothing is set.", "quantifier": "every option string, registration list and mode", "why_tests_cant": "All strings.", "anchors": ["src/Options.h"]}
{"id": "C63", "title": "Operator and vector specifications are parsed as documented", "statement": "label?n and label?n' are split into label, number and transpose flag; name[site] into name and site; |Pn>, <Pn|, |Xn>, |QmXn>, gs are recognised as documented and malformed ones rejected.", "quantifier": "every specification string", "why_tests_cant": "All strings.", "anchors": ["src/OneOperatorSpec.h", "src/GetBraOrKet.h"]}
{"id": "C64", "title": "Linear prediction continues recurrences", "statement": "predict appends values satisfying the linear recurrence with the fitted coefficients; the polynomial rebuilt from roots in predict2 is the product of the linear factors.", "quantifier": "every data set, order and number of predicted points", "why_tests_cant": "All sequences.", "anchors": ["src/LinearPrediction.h: predict, predict2"]}
{"id": "C65", "title": "Vector arithmetic helpers", "statement": "scalarProduct, operator*, += and the closure expressions on vectors compute the elementwise or bilinear operations they denote for vectors of equal length.", "quantifier": "all vectors of equal length", "why_tests_cant": "All lengths.", "anchors": ["src/Vector.h"]}
{"id": "C66", "title": "Per-thread storage is indexed within bounds", "statement": "For every mode, storageIndex(t) < storageSize(n) for every thread t<n, and different threads of one process get different slots when the mode uses threads.", "quantifier": "every mode, thread number and thread count", "why_tests_cant": "Unbounded counts.", "anchors": ["src/Concurrency.h: storageSize, storageIndex"]}
{"id": "C67", "title": "Solver parameters fall back to the closest smaller index", "statement": "Reading a solver parameter for index ind uses the value given for ind, else that of the largest smaller index given, else the unindexed one, else the default.", "quantifier": "every index and every set of labels present", "why_tests_cant": "Unbounded indices and all subsets of labels.", "anchors": ["src/ParametersForSolver.h: rabbitHole, bunnie, hare"]}
{"id": "C68", "title": "Ainur variables", "statement": "A declared variable reads back its last assigned value; reading an undeclared or never assigned one, assigning an undeclared one or declaring twice is an error; macros inside values are replaced by the value of the named variable.", "quantifier": "every sequence of declarations, assignments and reads", "why_tests_cant": "History property.", "anchors": ["src/Ainur/AinurState.h"]}
{"id": "C69", "title": "Continued fraction collection", "statement": "Plotting a collection gives, at each frequency, the sum of the plots of its members, and fails if the frequency grids differ.", "quantifier": "every list of plots", "why_tests_cant": "All lists.", "anchors": ["src/ContinuedFractionCollection.h: plot, accumulate"]}
{"id": "C70", "title": "MersenneTwister seeding is that of the reference MT19937", "statement": "The 624 initial words after seed(s) are those of the reference implementation (init_genrand).", "quantifier": "every seed", "why_tests_cant": "All 2^32 seeds.", "anchors": ["src/MersenneTwister.cpp: seed"]}
{"id": "C71", "title": "Nested vector times vector", "statement": "The product of a vector of rows with a vector returns the vector of the products of each row with it.", "quantifier": "all nested vectors and vectors", "why_tests_cant": "All lengths.", "anchors": ["src/Vector.h: operator*(vector<vector>, vector)"]}
{"id": "C72", "title": "Results may be assigned to an operand", "statement": "Transposing a matrix into itself, and assigning a product, sum or multiple to one of its operands, gives the mathematical result.", "quantifier": "every matrix and every way the target can be one of the operands", "why_tests_cant": "Aliasing: all matrices.", "anchors": ["src/Matrix.h: transposeConjugate(m2,m), transpose(m2,m), operator<=, closures"]}
{"id": "C73", "title": "Functions of a Hermitian matrix", "statement": "exp(m) and expIpi(m) replace m by U f(D) U^dagger, where U D U^dagger is the eigendecomposition of m.", "quantifier": "every Hermitian matrix and every valid result of diag", "why_tests_cant": "All matrices.", "anchors": ["src/Matrix.h: exp, expIpi"]}
{"id": "C74", "title": "Dense predicates", "statement": "isHermitian, isAntiHermitian, isZero and isTheIdentity on dense matrices answer true exactly for matrices with that property, and do not read outside the matrix.", "quantifier": "every matrix and every tolerance test", "why_tests_cant": "All matrices.", "anchors": ["src/Matrix.h: isHermitian, isAntiHermitian, isTheIdentity, isZero"]}
{"id": "C75", "title": "CRS validity check", "statement": "checkValidity accepts exactly the well formed CRS matrices with at least one row and column and no duplicate column in a row.", "quantifier": "every content of the arrays of a CRS matrix", "why_tests_cant": "All array contents.", "anchors": ["src/CrsMatrix.h: checkValidity"]}
{"id": "C76", "title": "CRS equality, norm and product with a conjugate transpose", "statement": "operator== on CRS matrices is equality of representations, which for sorted rows without zeros is equality of the matrices; norm2 is the sum of the squared absolute values of all elements; multiplyTc(a,b) is the dense a*b^dagger.", "quantifier": "every well formed matrix or pair", "why_tests_cant": "All sparsity patterns.", "anchors": ["src/CrsMatrix.h: operator==, norm2, multiplyTc"]}
{"id": "C77", "title": "Chunks and partitions of a sparse vector", "statement": "findPartition gives the partition that holds all indices of the vector and fails if they lie in more than one; toChunk gives the dense part of the vector in its partition; fromChunk and toChunk are inverse to each other.", "quantifier": "every sparse vector, every increasing sequence of partition offsets and every previous content of the target", "why_tests_cant": "All vectors and partitions.", "anchors": ["src/SparseVector.h: findPartition, toChunk, fromChunk, findFirstLast"]}
{"id": "C78", "title": "Sparse vector arithmetic", "statement": "Building from a dense vector, multiplying by a scalar, subtracting, and the squared norm act on the represented vector as the dense operations; isOne holds exactly when at most one stored value is not negligible.", "quantifier": "every sparse vector", "why_tests_cant": "All contents.", "anchors": ["src/SparseVector.h: SparseVector(v), operator*=, operator-=, norm, isOne"]}
{"id": "C79", "title": "Cached connectors agree with computed ones", "statement": "After a geometry term caches its values, asking for the coupling between (site1, orbital1) and (site2, orbital2) returns, for every pair of connected sites, the value the term's direction gives for them, and zero for every unconnected pair; with several orbitals, exchanging the two ends of a non-general connector conjugates the value.", "quantifier": "all numbers of sites and orbitals, all lattices (connected relation, direction function), all connector values in any ring with conjugation", "why_tests_cant": "The cache is filled by four nested loops over all sites and orbitals; a test only samples some lattices and values.", "anchors": ["src/Geometry/GeometryTerm.h:cacheValues", "src/Geometry/GeometryTerm.h:calcValue", "src/Geometry/GeometryTerm.h:operator()", "src/Geometry/GeometryDirection.h:operator()"]}
{"id": "C80", "title": "Chain with a gap between system and environment", "statement": "For a chain where only sites up to smax (system) and from emin on (environment) are present, two present sites are connected exactly when they are connected in the chain obtained by removing the gap, and the coupling across the gap is the one between smax and its right neighbour.", "quantifier": "all lengths, periodicities, gaps smax < emin and pairs of sites outside the gap", "why_tests_cant": "The gap moves at every step of a DMRG sweep; tests cannot enumerate all gaps of all chains.", "anchors": ["src/Geometry/GeometryTerm.h:connected", "src/Geometry/GeometryTerm.h:operator()", "src/Geometry/LongChain.h:fringe", "src/Geometry/LongChain.h:getSubstituteSite"]}
{"id": "C81", "title": "Entries appended one by one", "statement": "Values appended under one name with writeVectorEntry and the counters 0, 1, ..., n-1 are all readable under name/i, and readLastVectorEntry gives the last one.", "quantifier": "every non-empty list of numbers, every earlier history of the file", "why_tests_cant": "History property over all lengths.", "anchors": ["src/Io/IoNg.h: Out::writeVectorEntry, In::readLastVectorEntry"]}
{"id": "C82", "title": "A continued fraction is a resolvent element", "statement": "For every tridiagonal matrix T with diagonal a and off-diagonal b, ground energy Eg, sign s = +-1 and weight, the function set up from them has at every frequency z off the real axis the value weight times the first element of the solution x of (z - s(Eg - T)) x = e_0, which is weight times the continued fraction 1/(z - s(Eg-a0) - b1^2/(z - s(Eg-a1) - ...)).", "quantifier": "every tridiagonal matrix of any size with exact eigendecomposition, every energy, weight, sign and frequency off the real axis", "why_tests_cant": "All sizes and all complex frequencies.", "anchors": ["src/ContinuedFraction.h: set, diagonalize, iOfOmega", "src/TridiagonalMatrix.h: buildDenseMatrix"]}
{"id": "C83", "title": "Complex numbers written as text", "statement": "A complex number written as a+bi, with any signs, is read as the number it denotes.", "quantifier": "every real and imaginary part of either sign", "why_tests_cant": "All pairs of numbers and all ways to write them.", "anchors": ["src/Complex.h: stringToComplex"]}
{"id": "C84", "title": "Vectors and matrices in Ainur input", "statement": "A value [x0, x1, ...] gives the vector of its elements, [x, ...] fills a vector of known size, [x, ...xN] gives N copies, [[..],[..]] gives the matrix of its rows, however the text is spaced; any other text is an error.", "quantifier": "every text, every element conversion and every previous content of the target", "why_tests_cant": "All texts, sizes and element types.", "anchors": ["src/Ainur/AinurConvert1.cpp: AinurConvert::convert, Action, ActionMatrix"]}
{"id": "C85", "title": "Complex numbers in Ainur input", "statement": "A complex number given in Ainur input is read as the number it denotes.", "quantifier": "every real and imaginary part of either sign, however written", "why_tests_cant": "All pairs of numbers and all ways to write them.", "anchors": ["src/Ainur/AinurComplex.hh: toComplex"]}
{"id": "C86", "title": "Chebyshev recurrence and moments", "statement": "Starting from x = 0 and y = v, k calls of oneStepDec leave y = T_k(H') v with H' = (H - b)/a, and the numbers of step j are <T_j v, T_j v> and <T_j v, T_(j+1) v>, from which the moments of order 2j and 2j+1 follow; decomposition returns those moments. The scaling found from the extreme energies takes every energy between them into [-1, 1].", "quantifier": "every Hermitian matrix, start vector, scaling and number of steps", "why_tests_cant": "All matrices and all numbers of steps.", "anchors": ["src/ChebyshevSolver.h: oneStepDec, decomposition, computeAandB, InternalMatrix", "src/LanczosVectors.h: cols, prepareMemory"]}
{"id": "C87", "title": "Spectral function from Chebyshev moments", "statement": "plot gives at every frequency the kernel polynomial sum of the moments divided by sqrt(1-x^2); with the kernels of Jackson and Lorentz the result is nowhere negative if the moments are those of a positive measure, and the kernels leave the total weight as it is.", "quantifier": "every sequence of moments, every positive measure, every frequency, cutoff and kernel", "why_tests_cant": "All moments, kernels, cutoffs and real frequencies.", "anchors": ["src/ChebyshevSerializer.h: plot, calcF, computeGnMuN, initKernelJackson, initKernelLorentz"]}
{"id": "C88", "title": "Eigenvalues of a tridiagonal matrix without LAPACK", "statement": "For every tridiagonal matrix the built-in (implicit QL) diagonalisation either reports failure by throwing after its iteration limit or returns the sorted eigenvalues of the matrix it was given, up to the negligible couplings it drops; it never reads outside its vectors nor divides by zero.", "quantifier": "every size, every diagonal and off-diagonal, every iteration limit and every test for negligible elements", "why_tests_cant": "The iteration is data dependent and unbounded in size; tests see a few spectra and cannot exclude a division by zero or a wrong rotation.", "anchors": ["src/TridiagonalMatrix.h: TridiagonalMatrix::ground", "src/TridiagonalMatrix.h: buildDenseMatrix", "src/TridiagonalMatrix.h: diag"]}
{"id": "C89", "title": "Fermi function", "statement": "The Fermi function and its derivative agree with 1/(1+e^x) and its derivative up to e^-50 for every argument; the function stays in [0,1], never increases, and satisfies f(x)+f(-x)=1 exactly; the logarithm of the Fermi function is right up to e^-20.", "quantifier": "every real argument, on both sides of every cut-off", "why_tests_cant": "The cut-offs and the branch at zero must fit together for every real argument; a test samples a few.", "anchors": ["src/Fermi.h: fermi", "src/Fermi.h: fermiPrime", "src/Fermi.h: logfermi"]}
{"id": "C90", "title": "Runge-Kutta integration", "statement": "Integrating an ordinary differential equation yields, in order and starting with the initial vector, exactly the values of the classical fourth-order Runge-Kutta method at the requested times; the method is exact for right-hand sides that are cubic in time and of fourth order on linear equations.", "quantifier": "every number type, every right-hand side that keeps the vector size, every step, number of steps and initial vector", "why_tests_cant": "Order of convergence and exactness are statements about all steps and all right-hand sides.", "anchors": ["src/RungeKutta.h: RungeKutta::solve", "src/RungeKutta.h: RungeKutta::solveEx"]}
{"id": "C91", "title": "Ainur input files", "statement": "Reading an Ainur input executes exactly the statements written in it, in their order: declarations, definitions and assignments, with blanks and comments anywhere between their parts; each variable then reads as the last value given to it. Characters that are not allowed and text that is no statement are errors.", "quantifier": "every sequence of statements, every choice of blanks and comments, every input text", "why_tests_cant": "The inputs are unbounded texts; the grammar backtracks over three kinds of statements and over comments.", "anchors": ["src/Ainur/AinurSpirit1.cpp: Ainur::Ainur, Action, Action3", "src/Ainur/AinurSpirit.h: Ainur, allEmpty", "src/Ainur/AinurLexical.h: AinurLexical"]}
{"id": "C92", "title": "Functions read from files", "statement": "A function that an Ainur input makes from a file gives, for every number in the chosen first column, the number in the chosen second column of the first such line; a value written as such a function with an argument reads as that number. Chosen separators, blank lines and columns are respected, and long lines are read.", "quantifier": "every file content, every choice of columns, every argument", "why_tests_cant": "File contents are unbounded texts; which line is found depends on all lines before it.", "anchors": ["src/Ainur/AinurMacros.hh: AinurFunction, AinurMacros::valueFromFunction, AinurMacros::getFunctionNameValue"]}
{"id": "C93", "title": "Run identifiers", "statement": "The identifier given to a run always passes the check program: it is a number followed by two digits that count its one bits. Among texts of digits, for numbers below 2^63, the check accepts exactly such identifiers, so it notices a changed binary digit and changed check digits.", "quantifier": "every process number and clock reading; every text given to the check", "why_tests_cant": "The generator is seeded from the process and the clock; a test sees a few values.", "anchors": ["src/ApplicationInfo.h: ApplicationInfo::runIdInternal", "examples/checkRunId.cpp: checkRunId"]}
{"id": "C94", "title": "Gathering a vector from all processes", "statement": "pointByPointGather gives the root process, at every place of the vector, the element of the process that owns the place, for numbers, pairs and vectors of any sizes; the other vectors stay. However the messages are buffered and the processes scheduled, no process blocks forever and no message is left.", "quantifier": "every number of processes, every size and contents of the vectors, every schedule of the processes and every choice of MPI about buffering", "why_tests_cant": "Deadlocks depend on buffering and timing, and sizes that are not multiples of the number of processes give ragged blocks.", "anchors": ["src/MpiYes.h: MPI::pointByPointGather, MPI::send, MPI::recv"]}
{"id": "C95", "title": "Broadcast and sums over processes", "statement": "bcast gives all processes what the root has, whatever sizes they had; reduce gives the root, and allReduce all processes, the element-wise sums.", "quantifier": "every number of processes, root, and vectors", "why_tests_cant": "The defects depend on the sizes the processes happen to have and on the type of the elements.", "anchors": ["src/MpiYes.h: MPI::bcast, MPI::reduce, MPI::allReduce"]}
{"id": "C96", "title": "Progress lines", "statement": "printline and print give one line 'caller [time]: message' on the stream, from the first thread of the first process only; the message printed is what was written to the message stream since it was last printed; while the recorder is on, the file it leaves holds exactly the lines printed; the stream's format is as before; a Profiling object prints one starting and one stopping line however it is ended.", "quantifier": "every caller, message, time, sequence of messages and indicators, and every state of the recorder", "why_tests_cant": "A reused message stream and the recorder go wrong only for certain sequences of lengths and calls.", "anchors": ["src/ProgressIndicator.h: ProgressIndicator::printline, print, printMemoryUsage, updateBuffer", "src/Profiling.h: Profiling"]}
{"id": "C97", "title": "Memory entries and elapsed times", "statement": "Reading the status file ends and keeps its text; findEntry gives the rest of the line behind the label without leading blanks, and NOT_FOUND if there is none; differences and sums of times are those of the times in microseconds.", "quantifier": "every text of the file, label and pair of times", "why_tests_cant": "The failures need lines longer than the buffer or entries of blanks only.", "anchors": ["src/MemoryUsage.h: MemoryUsage::update, findEntry, TimeHandle"]}
{"id": "C98", "title": "Connectors given by the user", "statement": "A long range geometry gives, between any two sites and orbitals, the value the input lists for them: the last row of a compact table about them (zero if none), the element of a full matrix, or the entangler above the diagonal; a cell that is not an integer, an unknown option, missing input and a matrix that does not match the number of orbitals are refused.", "quantifier": "every number of sites and orbitals, every table of rows, matrix and entangler value", "why_tests_cant": "A test has one table; the claim is about every pair of sites and orbitals for every order and repetition of rows.", "anchors": ["src/Geometry/LongRange.h: LongRange constructor, set, translate, findReflection, maxConnections", "src/Geometry/GeometryTerm.h: cacheValues, operator()", "src/Geometry/GeometryDirection.h: operator()"]}
{"id": "C99", "title": "Copying an object with what it points to", "statement": "MemResolv's dup gives, in one new block, a copy of the chunks it was given in which data is the same, null pointers are null and every other pointer points to the copy of what it pointed to, so that following pointers from the copy and from the original visits corresponding addresses; pushing a chunk again changes nothing; save followed by loading with the same label gives back the bytes of that copy; another label is refused.", "quantifier": "every memory, list of chunks and gaps between them, address of the new block, path of pointers and label", "why_tests_cant": "Where memory is allocated and how large the gaps are differs from run to run; the relocation must be right for all of them.", "anchors": ["src/MemResolv.h: MemResolv::dup, push, save, get, memResolv, constructors", "src/MemResolv.cpp: operator=="]}
{"id": "C100", "title": "Complex numbers, unsigned numbers and maps of input files", "statement": "After any requests to the reader of a well formed input file: a label with a whole number gives it to a long or unsigned variable and a real number to a floating one; a vector or matrix of complex numbers written (a,b) or a is read as those numbers; a map read by label l gets for each label l[key] its number under key, and nothing else. The extension of a file name is what follows its last dot.", "quantifier": "every well formed file, series of earlier requests, label and conversion from text to floating numbers", "why_tests_cant": "All files and all interleavings of requests; the errors found need particular texts (negative numbers, missing parentheses, repeated labels).", "anchors": ["src/InputNg.h: readline, read, stringToComplexOrReal, stringToReal, extensionOf", "src/PsimagLite.cpp: atoi, atof"]}
{"id": "C101", "title": "Threads of a parallel loop", "statement": "A parallel loop creates as many threads as asked for, but not more than there are tasks; if affinities are set, each thread for which the system accepts it gets one processor of its own from those of the process, in order, until none is left, and no two threads share one. A stack size asked for is the one the threads have.", "quantifier": "every number of threads and tasks, set of processors, and pattern of failures of the system calls", "why_tests_cant": "Depends on the machine, on the processors the process may use and on which system calls fail.", "anchors": ["src/PthreadsNg.h: PthreadsNg::loopCreate, setAffinity, getOneCpuFromSet, getPidAffinity"]}
{"id": "C102", "title": "The couplings of a geometry read from an input file are those the file gives", "statement": "When an input file gives the number of sites, the number of terms and, for each term, its kind (chain, longchain, ladder, star), its options, its sizes and periodicity and its connectors, then the geometry built from it has that many sites and terms. In each term the value for two sites is the connector the file gives their bond, at the bond's position in its direction, or the only connector if the option ConstantValues is given; it is the same in both orders of the sites. Sites without a bond have value 0. Labels that occur several times are used in the order of the terms. A file that does not have as many connectors as the bonds of a direction need is refused.", "quantifier": "all well formed input files, numbers of sites and terms, lattice sizes, periodicities, distances and connectors", "why_tests_cant": "The result depends on the whole text of the file, on the order of its labels and on the lattice: the combinations cannot be enumerated, and a wrong position of a connector only shows for particular sites.", "anchors": ["src/Geometry/Geometry.h: Geometry, operator()", "src/Geometry/GeometryTerm.h: GeometryTerm, operator()", "src/Geometry/GeometryDirection.h: GeometryDirection", "src/Geometry/LongChain.h", "src/Geometry/Ladder.h", "src/Geometry/Star.h", "src/InputNg.h: Readable"]}
{"id": "C103", "title": "A sparse matrix that is filled or assigned has the elements it was given", "statement": "Assigning a list of entries sorted by rows gives a sparse matrix with these elements and zeros elsewhere, whatever the matrix was before; a list that is not sorted is refused. Assigning a product or a multiple gives the product or the multiple, also when the matrix that is assigned is one of the factors. swap exchanges two matrices. The checked setters store a column or a value at a place, appending it when the place is the first that is not there.", "quantifier": "every list of entries, every sparse matrix of any shape and pattern, every place", "why_tests_cant": "Rows without entries, rows with several and the place of the last entry combine without end, and a factor that is overwritten while it is read goes wrong silently.", "anchors": ["src/CrsMatrix.h: CrsMatrix::operator=, setCol_check, setValues_check, swap, multiply"]}
{"id": "C104", "title": "A minimization tells how it ended", "statement": "simplex and conjugateGradient, called with a start of as many numbers as the function has variables, end in one of three ways. If the test of convergence succeeds after an iteration, they return the number of that iteration, counted from 0, put the point of the minimizer in the argument, and the status is success. If an iteration reports an error, the argument stays as it was, the status is the error, and the call does not look like a success. Otherwise they return the maximal number of iterations and the last point, with the status that there is more to do. A call leaves no memory behind.", "quantifier": "every sequence of states, errors and test results of the minimizer library, every number of variables, every maximal number of iterations", "why_tests_cant": "The iteration at which the test succeeds or an error occurs depends on the function that is minimized.", "anchors": ["src/Minimizer.h: Minimizer::simplex, Minimizer::conjugateGradient, Minimizer::status"]}
{"id": "C105", "title": "Decompositions of dense matrices", "statement": "diag gives the eigenvalues of a Hermitian matrix in ascending order and, with option V, replaces the matrix by orthonormal eigenvectors; geev gives eigenvalues and the right and left eigenvectors asked for; inverse replaces a matrix by its inverse; Svd replaces a matrix by its left singular vectors and gives the singular values in descending order and the right singular vectors. For every size, the LAPACK routines are called with arguments they accept and with arrays of at least the documented lengths. If LAPACK reports that it failed, the call throws. A matrix of a wrong shape is refused. isThreadSafe says yes exactly for versions from 3.3 on.", "quantifier": "every matrix of every size, every option, every LAPACK that meets its documentation", "why_tests_cant": "The workspace depends on the size and on what LAPACK asks for; a buffer that is too short may go unnoticed, and failures to converge are rare.", "anchors": ["src/Matrix.cpp: diag, geev, checkBlasStatus", "src/Matrix.h: inverse", "src/Svd.h: Svd::operator()", "src/LAPACK.h: isThreadSafe"]}
{"id": "C106", "title": "Number of connections broken by a split", "statement": "maxConnections of a lattice is an upper bound of the number of bonds between the first sites and the rest, wherever the lattice is split. maxConnections of a geometry is the greatest of those of its terms.", "quantifier": "every lattice of every size with every option, every place where it can be split", "why_tests_cant": "The worst place to split depends on the sizes and on which directions are periodic; the examples that are run have two legs and no distance.", "anchors": ["src/Geometry/LongChain.h: maxConnections", "src/Geometry/Ladder.h: maxConnections", "src/Geometry/LadderX.h: maxConnections", "src/Geometry/LadderBath.h: maxConnections", "src/Geometry/KTwoNiFFour.h: maxConnections", "src/Geometry/Star.h: maxConnections", "src/Geometry/Honeycomb.h: maxConnections", "src/Geometry/Geometry.h: maxConnections"]}
{"id": "C107", "title": "Couplings across sites that are not there yet", "statement": "When only the sites up to smax (the system) and from emin on (the environment) are there, the coupling of a site of the system and one of the environment is that of the lattice in which the environment was moved up to the system, by whole columns or cells so that rows stay rows. Nothing changes if no site is missing, and no two sites that are coupled are reported as unconnected.", "quantifier": "every lattice, size, periodicity, gap whose ends mirror each other and pair of sites; the star, LongRange and the baths: every gap", "why_tests_cant": "The gap moves at each step of growing a lattice; the examples that are run have two legs and few sizes.", "anchors": ["src/Geometry/Geometry.h: operator(), connected", "src/Geometry/GeometryTerm.h: operator(), connected", "src/Geometry/Ladder.h: fringe, getSubstituteSite", "src/Geometry/LadderX.h: fringe, getSubstituteSite", "src/Geometry/LadderBath.h: fringe, getSubstituteSite", "src/Geometry/KTwoNiFFour.h: fringe, getSubstituteSite", "src/Geometry/Star.h: fringe", "src/Geometry/LongRange.h: getSubstituteSite", "src/Geometry/Honeycomb.h: fringe"]}
{"id": "C108", "title": "Files that are written are complete at the end and a beginning at any moment", "statement": "When an object that writes text files is gone, each file is what was asked for, in order: emptied or continued when it was opened, then each line, number and text; other files are unchanged. If the program is killed at any moment, a file has a beginning of that. Nothing is refused if files are opened one after the other and closed. Only the first process writes. Nothing that is written is lost without an error.", "quantifier": "every history of opens, closes and writes, every moment at which the buffer is handed to the operating system, every process and every disk", "why_tests_cant": "When the buffer is written depends on its size and on the sizes of the texts; a test sees one history and no crash.", "anchors": ["src/Io/IoSimple.h: Out"]}
{"id": "C109", "title": "Standard output that is redirected", "statement": "The standard output goes to the terminal until the first redirection that can be done and from then on to the file; at the end of the program the file has all of it and the standard output is the terminal again. Later redirections are refused. If the program is killed, the file has a beginning of what was written, and all of it if unbuffered output was asked for.", "quantifier": "every history of writes and redirections, every file system and every moment at which the buffer is handed over", "why_tests_cant": "A test sees one history, and not what is on the disk when the program is killed.", "anchors": ["src/RedirectOutput.hh: doIt, isSet, restoreCoutBuffer, setAppName"]}
{"id": "C110", "title": "Random numbers of 48 bits and random vectors", "statement": "Each number is at least 0 and below 1. The numbers depend on the seed and the rank; they repeat exactly after 2^48 draws, and each multiple of 2^-48 comes up. Different ranks and seeds have different numbers, and so do different objects. A vector that is filled with random numbers has norm 1 at any time; an empty one is refused.", "quantifier": "every seed, rank, number of ranks, number of draws, history of objects, time of day and size of a vector", "why_tests_cant": "The period is 2^48, no test can go through it; the vector depends on the time of the call, and a vector of zeros would have no norm.", "anchors": ["src/Random48.h: Random48, operator(), random, seed", "src/PsimagLite.h: fillRandom"]}
{"id": "C111", "title": "Matrices that are printed", "statement": "The mathematica form of a matrix has every element in its place, and two matrices of any size with the same text are the same if the texts of elements are distinguishable. The form with letters gives equal values equal letters and explains each letter; it refuses a matrix with more different values than letters. The form with a cutoff prints elements below it as zero. The form that prints only nonzero elements shows each of them. A sparse matrix is printed like the dense one it stands for.", "quantifier": "every matrix, size, printed form of an element, norm and cutoff", "why_tests_cant": "The text depends on every element and on which elements are equal; the faults appear only for tall matrices and for many different values.", "anchors": ["src/Matrix.h: mathematicaPrint, symbolicPrint, printNonZero, print", "src/CrsMatrix.h: printFullMatrix"]}
{"id": "C112", "title": "Change of basis of a matrix", "statement": "Rotating a square matrix m by T gives T^dagger m T, with as many rows and columns as T has columns. Two rotations are the one by the product, a rotation by an inverse takes it back, Hermitian matrices stay Hermitian, and a unitary T keeps the trace. Matrices whose sizes do not fit are refused.", "quantifier": "every matrix and transformation, size and commutative ring with conjugation", "why_tests_cant": "The result depends on every element; sizes that do not fit may give a result without any error.", "anchors": ["src/Matrix.h: rotate", "src/BLAS.h: GEMM"]}
{"id": "C113", "title": "Matrices that are views of a vector", "statement": "A view of rows, columns and offset is made exactly if all its places are in the vector. It reads and writes element (i,j) at offset + i + j * rows, and a write changes nothing else: not the other elements of the view and not a view of other places. The view of a matrix has its elements. A view without elements is allowed.", "quantifier": "every vector, number of rows and columns, offset, element and pair of views", "why_tests_cant": "Overlap of views and wrap-around of sizes at 2^64 depend on all sizes together.", "anchors": ["src/MatrixNonOwned.h: MatrixNonOwned, operator(), check"]}
{"id": "C114", "title": "Name of a file without its extension", "statement": "The result is the part of the name before its last point, or the whole name if there is no point.", "quantifier": "every name", "why_tests_cant": "Names for which the fault cancels exist for each length of the extension, so that examples may all be right.", "anchors": ["src/Vector.h: basenameOf"]}
{"id": "C115", "title": "Directions, signs and orbitals of bonds", "statement": "In the K2NiF4 lattice a pair of sites has a direction exactly if it is connected, the same from both ends and fixed by the kind of the two sites. The sign of a bond is the same from both ends, -1 for a copper and the oxygen next to it in the numbering, and is multiplied by the sign of the input where the first oxygen of an odd unit takes part. Coppers have one orbital, and the number of all orbitals is the number of rows of the matrix of couplings. In a ladder with bath, bonds of the cluster have connection, direction and place as in the ladder alone, and bonds with the bath the third direction.", "quantifier": "every pair of sites, number of sites, sign, number of orbitals, ladder and number of bath sites", "why_tests_cant": "The rules depend on the sites modulo 4 and 8 and on which end is given first; a lattice of any size must agree.", "anchors": ["src/Geometry/KTwoNiFFour.h: calcDir, signChange, orbitals, matrixRank", "src/Geometry/LadderBath.h: calcDir, handle, connected"]}
{"id": "C116", "title": "The mesh of momenta", "statement": "For a geometry of kind star and a number of mesh points asked for, the mesh has L times L points, where L is the largest number whose square is not above the number asked for. Point a L + b is a steps of 2 pi / L along the first axis and b along the second from the corner (-pi,-pi); all points lie in the square from -pi to pi without its upper edges, and different numbers give different points. For other kinds the mesh must not be used.", "quantifier": "every kind of geometry, number of points asked for and number of a point", "why_tests_cant": "The number of points is cut to a square and each number is split by a division; that no two points coincide and none leaves the square must hold for every size.", "anchors": ["src/Geometry/GeometryEx.h: GeometryEx, getMeshVector, sizeOfMesh"]}
{"id": "C117", "title": "Stacks and pairs in files", "statement": "After any history of writes, a stack of dense or sparse matrices written under a new name is empty, and reading gives it back with the same element on top, above whatever the stack read into held; read as a vector, it starts with the top. A pair of a number and a matrix reads back as written. Neither changes a value that was there. A stack is refused under the name of a group and when overwriting is asked for.", "quantifier": "every history of writes, name, stack of matrices with elements, pair, and stack read into", "why_tests_cant": "The stack is taken apart from its top while it is written and built from its bottom while it is read; the order must survive for every height, and names of elements must not meet those of other values.", "anchors": ["src/Io/IoNgSerializer.h: write(stack), read(stack), write(pair), read(pair)"]}
{"id": "C118", "title": "The norm of a vector", "statement": "The norm of a real or complex vector is the root of the sum of the squares of the absolute values of its elements; the check that it is real never fails. It is zero only for a vector of zeros, a multiple has the norm times the absolute value of the number, the norm of a sum is at most the sum of the norms, and the absolute value of a scalar product at most the product of the norms. A vector divided by its norm, where that is not zero, has the norm one.", "quantifier": "every vector of real or complex numbers and every factor, in exact arithmetic", "why_tests_cant": "These are inequalities over all vectors of all lengths; tests see a few vectors.", "anchors": ["src/Vector.h: norm, operator*, scalarProduct, operator*=, operator/="]}
{"id": "C119", "title": "The printing of geometries", "statement": "Printing a term of a geometry gives, after a comment, a row for each orbital of each site and in it a word for each orbital of each site, in the same order: the coupling where the sites are connected and 0 where they are not. Printing a direction gives its flags, how many numbers or matrices it holds, and then them in order; it is the matrices exactly where there is more than one orbital or where the orbitals are specific.", "quantifier": "every number of sites, every number of orbitals at each site, every connection and coupling, every direction", "why_tests_cant": "The order and the number of words must be right for every lattice and number of orbitals; tests print a few lattices.", "anchors": ["src/Geometry/GeometryTerm.h: print", "src/Geometry/GeometryDirection.h: operator<<"]}
{"id": "C120", "title": "A Lanczos solver used more than once", "statement": "The calls of one Lanczos solver, one after the other: each gives a Lanczos decomposition, independent of the vectors that earlier calls have left in the object. The solver can be used again for another state or start vector as a new one can. lanczosVectorsSwap hands out the vectors of the last call.", "quantifier": "every Hermitian matrix, every sequence of calls with their start vectors and watched states, every number of steps, with and without reorthogonalisation", "why_tests_cant": "The object keeps vectors and a number of steps from call to call; tests use a solver once.", "anchors": ["src/LanczosCore.h: decomposition, lanczosVectorsSwap", "src/LanczosVectors.h: prepareMemory, dealWithStorageOfV, resize"]}
{"id": "C121", "title": "Continued fractions in files", "statement": "A continued fraction written to a simple text file is read back as it was, from any place in the file, and reading goes on just after it. A collection written after other text is read back, with the kind of frequency of its last fraction. A file of the older format, without the kind of frequency, is read as one of real frequencies.", "quantifier": "every fraction and every collection, every kind of number whose text is read back, every text before and after, every number of collections before", "why_tests_cant": "The reader searches the text for labels and may go back to the beginning of the file, so what it finds depends on all that is in the file.", "anchors": ["src/ContinuedFraction.h: ContinuedFraction(IoInputType&), write", "src/ContinuedFractionCollection.h: ContinuedFractionCollection(IoInputType&, int), write"]}
{"id": "C122", "title": "The record of a run in its file", "statement": "A program that writes the record of its run at the beginning and, after finalize, at the end, finds both in the file after it was closed: the name of the program, the identifier of the run, the time of the beginning and that of the end, whatever else was written between. A run that did not end has no time of the end. A record that cannot be written is refused.", "quantifier": "every sequence of writes to the file, of records under any labels and times, and of the end of the run", "why_tests_cant": "Where the end of the run falls among the writes, and what is written between, is up to the program; a lost record gives no error.", "anchors": ["src/ApplicationInfo.h: ApplicationInfo, finalize, write", "src/Io/IoNgSerializer.h: createGroup, write"]}
{"id": "C123", "title": "Reductions over processes by operation and type", "statement": "allReduce with any of the operations of MPI: the sums, products, largest and smallest of the numbers that the processes have at each place arrive at all processes, for unsigned numbers, complex numbers and matrices. Matrices of different shapes are refused.", "quantifier": "every number of processes, every size of the vectors or shape of the matrices, every value", "why_tests_cant": "Which values the processes have is not known to any of them, and errors are silent: the type MPI is told decides how bits are read.", "anchors": ["src/MpiYes.h: allReduce", "src/MpiYes.cpp: MpiData", "src/Matrix.h: MPI::allReduce"]}
{"id": "C124", "title": "Geometries in files", "statement": "A geometry that is written to a file under a label can be read from it item by item after the file was closed: the number of sites, how many terms there are, and for every term its numbers, options, directions and values, whatever was written before and after. It is not written over something else, and it leaves other values as they were.", "quantifier": "every history of writes before and after, every label, and every geometry: any number of terms, of directions in each and of matrices of any shape", "why_tests_cant": "The names in the file depend on how many terms, directions and matrices there are, and an item whose name is taken is lost without an error.", "anchors": ["src/Geometry/Geometry.h: write", "src/Geometry/GeometryTerm.h: write, Auxiliary::write", "src/Geometry/GeometryDirection.h: write, Auxiliary::write", "src/Io/IoNgSerializer.h: write of vectors of objects and of pointers"]}
{"id": "C125", "title": "Enumerations in files", "statement": "An enumerator, or a vector of them, that is written to a file under a new name is what is read after the file was closed and opened again, whatever was written before and after and whatever the target held; an enumerator written over another one replaces it. Without asking for overwriting, a name that is taken keeps its value. Other values stay as they were.", "quantifier": "every history of writes before and after, every name, every enumerator and every vector of enumerators of any length", "why_tests_cant": "Only one byte of each enumerator is stored, so what is read depends on its number; a few enumerators with small numbers do not show it.", "anchors": ["src/Io/IoNgSerializer.h: write and read of enumerations and of vectors of them", "src/Io/TypeToH5.h: typeToH5"]}

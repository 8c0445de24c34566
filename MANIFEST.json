{
 "claims": [
  {
   "property": "C01",
   "status": "proved",
   "theorems": [
    "C01_decode_encode",
    "C01_decode_total"
   ],
   "note": "[C01_decode_encode] decoding an encoded byte string gives the byte string. [C01_decode_total] Decoding is defined (no out-of-range access) on every text, also on text that is not base64."
  },
  {
   "property": "C02",
   "status": "proved",
   "theorems": [
    "C02_encode_is_rfc4648",
    "C02_encode_length",
    "C02_decode_rfc4648",
    "C02_stops"
   ],
   "note": "[C02_encode_is_rfc4648] the output is the RFC 4648 encoding ... [C02_encode_length] ... its length is four times the number of (started) groups of three bytes ... [C02_decode_rfc4648] ... and any RFC 4648 encoding produced elsewhere is decoded correctly. [C02_stops] Decoding stops at the first character outside the alphabet: what follows does not count."
  },
  {
   "property": "C03",
   "status": "proved",
   "theorems": [
    "C03_countKernighan",
    "C03_count"
   ],
   "note": "[C03_countKernighan] For every 64-bit word the Kernighan loop terminates within 64 iterations and returns the number of one bits. [C03_count] For every 64-bit word the parallel-sum version returns the same number."
  },
  {
   "property": "C04",
   "status": "proved",
   "theorems": [
    "C04_lbDefault_cover"
   ],
   "note": "[C04_lbDefault_cover] With any positive number of threads the constructor succeeds with blocks of ceil(ntasks/nthreads), and collecting taskNumber(t,p) over all threads t < m and all p < blockSize(t), then dropping the numbers that are not tasks, gives 0,1,...,ntasks-1, each once and in order; both when all nthreads threads are started and when only min(nthreads,ntasks) are."
  },
  {
   "property": "C05",
   "status": "proved",
   "theorems": [
    "C05_lbWeights"
   ],
   "note": "[C05_lbWeights] For every std::sort meeting its contract, all weights and any positive number of threads: the constructor succeeds; every task is on exactly one thread's list; threads that are not started (number >= m, where m is the number of threads, at most the number of tasks) get nothing; and no thread's load exceeds the average by more than (m-1)/m of the largest weight."
  },
  {
   "property": "C06",
   "status": "proved",
   "theorems": [
    "C06_parallelFor_exactly_once",
    "C06_loopCreate_exactly_once",
    "C06_loopCreate_weights_exactly_once",
    "C06_parallelFor_schedule_independent",
    "C06_loopCreate_weights_schedule_independent",
    "C06_serial"
   ],
   "note": "[C06_parallelFor_exactly_once] parallelFor over [start,stop) with any positive number of threads: under every schedule the lambda is called for every index exactly once, by a thread number below the number of threads. [C06_parallelFor_schedule_independent] Schedule independence: let the lambda for index i be any list of atomic actions on a shared state, let actions of different indices commute and let the actions not depend on the thread number. Then every interleaving of the threads at the granularity of single actions ends in the state of the serial loop. [C06_serial] The serial back ends: one thread or an exception."
  },
  {
   "property": "C07",
   "status": "proved",
   "theorems": [
    "C07_sort",
    "C07_sort_smallSize"
   ],
   "note": "[C07_sort] For every [std::sort] meeting its contract, every vector x and every iperm of the same size: the call succeeds, the new x is ascending, the new iperm is a permutation of 0..n-1, and new x[i] = old x[iperm[i]]. [C07_sort_smallSize] With a non-zero [smallSize] = n only the first n elements are sorted and the others are left alone."
  },
  {
   "property": "C08",
   "status": "proved",
   "theorems": [
    "C08_increase_is_successor",
    "C08_enumerates_all"
   ],
   "note": "[C08_increase_is_successor] One call: either the data are the lexicographically largest rearrangement, the result is false and nothing changes; or the result is true and the data become the next larger rearrangement. [C08_enumerates_all] The whole loop: starting from the constructed object and calling increase() until it returns false visits a strictly increasing sequence of arrangements which consists of exactly the rearrangements of the original data (so each distinct one once)."
  },
  {
   "property": "C09",
   "status": "proved",
   "theorems": [
    "C09_all_compositions",
    "C09_other_modes",
    "C09_size",
    "C09_at"
   ],
   "note": "[C09_all_compositions] With SEL_ALL the object stores exactly the vectors of length [total] with sum [sum], in strictly increasing lexicographic order (hence each once), and size() is their number. [C09_other_modes] SEL_SIZE stores nothing, SEL_INDEX stores exactly the requested vector (or nothing when there is no such index); size() is the same in every mode. [C09_size] The number is the binomial coefficient (sum+total-1 choose total-1). [C09_at] Asking for a composition by its number gives the one stored there, and is refused for a number that is too large."
  },
  {
   "property": "C10",
   "status": "proved",
   "theorems": [
    "C10_unpack",
    "C10_pack_unpack",
    "C10_unpack_huge_refuted"
   ],
   "note": "[C10_unpack] For sizes that fit a (signed) long, unpack gives the remainder and the quotient, x < n and x + y*n = ind. [C10_pack_unpack] unpack and then pack through the inverse of a permutation finds the position. The property is proved as stated; stronger claims than it are refuted: [C10_unpack_huge_refuted] Outside that range the conversion to long makes unpack wrong: the bound on the index cannot be dropped."
  },
  {
   "property": "C11",
   "status": "proved",
   "theorems": [
    "C11_split",
    "C11_runs_unique"
   ],
   "note": "[C11_split] split appends the maximal delimiter-free runs; it terminates after at most [length s + 1] tests of the loop condition. [C11_runs_unique] ... and that specification determines the tokens."
  },
  {
   "property": "C12",
   "status": "proved",
   "theorems": [
    "C12_replaceAll",
    "C12_replaced_unique"
   ],
   "note": "[C12_replaceAll] "
  },
  {
   "property": "C13",
   "status": "proved",
   "theorems": [
    "C13_integerDivision",
    "C13_log2Integer",
    "C13_isAnInteger",
    "C13_isAfloat",
    "C13_atoi_digits",
    "C13_atoi_throws",
    "C13_basename"
   ],
   "note": "[C13_integerDivision]  [C13_log2Integer] log2Integer is the least number of binary digits. [C13_basename] basename drops everything up to the last separator."
  },
  {
   "property": "C14",
   "status": "proved",
   "theorems": [
    "C14_stream",
    "C14_temper_range",
    "C14_temper_injective"
   ],
   "note": "[C14_stream] For every seed there is one infinite sequence of words, given by the seed, the library's initialisation and the MT19937 recurrence, such that for every number of calls the outputs are the tempered words 624, 625, ...; words stay below 2^32 and the index below 624. [C14_temper_range] Tempering keeps 32 bits and loses no information."
  },
  {
   "property": "C15",
   "status": "partial",
   "theorems": [
    "C15_ranks_refuted",
    "C15_rank_seed_partial"
   ],
   "note": "Proved with restrictions: [C15_rank_seed_partial] What holds: rank r >= 1 is seeded with the r-th output of the stream of the common seed (rank 0 with the first one), so two ranks r1, r2 >= 1 get different seeds exactly when those two outputs differ. Where the code does not do what the property says: [C15_ranks_refuted] The claim \"different ranks are seeded differently\" is false: ranks 0 and 1 always get the same generator."
  },
  {
   "property": "C16",
   "status": "proved",
   "theorems": [
    "C16_next",
    "C16_range",
    "C16_iter",
    "C16_full_period"
   ],
   "note": "[C16_next] No int overflow for any seed; the state becomes 16807*x mod 2^31-1 (1 if that is 0), strictly between 0 and 2^31-1. [C16_iter] From a state in range, n calls multiply by 16807^n modulo 2^31-1. [C16_full_period] The period is exactly 2^31 - 2: the stream does not repeat earlier."
  },
  {
   "property": "C17",
   "status": "proved",
   "theorems": [
    "C17_from_dense",
    "C17_fullMatrixToCrsMatrix",
    "C17_round_trip",
    "C17_round_trip_crs"
   ],
   "note": "[C17_from_dense] Dense to CRS. [C17_fullMatrixToCrsMatrix] fullMatrixToCrsMatrix does the same whatever its target held before. [C17_round_trip_crs] The other way round: a CRS matrix survives the trip through a dense one in canonical form (sorted columns, no zeros)."
  },
  {
   "property": "C18",
   "status": "proved",
   "theorems": [
    "C18_every_matrix_well_formed",
    "C18_checkValidity_accepts",
    "C18_scale_conjugate",
    "C18_makeDiagonal"
   ],
   "note": "[C18_checkValidity_accepts] Consequently the library's own validity check accepts every matrix with at least one row and one column."
  },
  {
   "property": "C19",
   "status": "proved",
   "theorems": [
    "C19_matrixVectorProduct",
    "C19_multiply"
   ],
   "note": "[C19_matrixVectorProduct] Matrix times vector. [C19_multiply] The three-argument product overwrites its target."
  },
  {
   "property": "C20",
   "status": "proved",
   "theorems": [
    "C20_multiply"
   ],
   "note": "[C20_multiply] Product."
  },
  {
   "property": "C21",
   "status": "proved",
   "theorems": [
    "C21_transposeConjugate",
    "C21_twice"
   ],
   "note": "[C21_transposeConjugate] Conjugate transpose."
  },
  {
   "property": "C22",
   "status": "proved",
   "theorems": [
    "C22_operatorPlus",
    "C22_plus_assign",
    "C22_plus_assign_product"
   ],
   "note": "[C22_operatorPlus] Linear combination; [pad_elem] extends a matrix by zeros."
  },
  {
   "property": "C23",
   "status": "proved",
   "theorems": [
    "C23_sum"
   ],
   "note": "[C23_sum] Sum of many matrices with coefficients."
  },
  {
   "property": "C24",
   "status": "proved",
   "theorems": [
    "C24_with_identity",
    "C24_two_matrices",
    "C24_positions"
   ],
   "note": "[C24_with_identity] Kronecker products. [p] permutes the product basis; the pair (a, e) of a state of A and one of the other factor has number a + e*na (order) or e + a*nout (not order) before permuting. [C24_positions] Every row and column number below n is the position of exactly one pair, so the elements above are all the elements."
  },
  {
   "property": "C25",
   "status": "proved",
   "theorems": [
    "C25_fromBlockToFull"
   ],
   "note": "[C25_fromBlockToFull] Embedding a block."
  },
  {
   "property": "C26",
   "status": "partial",
   "theorems": [
    "C26_triplets_refuted",
    "C26_gap_refuted",
    "C26_empty_refuted",
    "C26_triplets_partial"
   ],
   "note": "Proved with restrictions: [C26_triplets_partial] It is right when the listed rows are 0..k-1, once each, in any order. Where the code does not do what the property says: [C26_triplets_refuted] Coordinate lists: wrong as soon as a row has two entries, because the row pointers count rows instead of entries. [C26_gap_refuted] Rows without entries before the last row given also break it. [C26_empty_refuted] Empty lists make the constructor read outside a vector."
  },
  {
   "property": "C27",
   "status": "partial",
   "theorems": [
    "C27_hermitian",
    "C27_diagonal_zero",
    "C27_isTheIdentity_refuted",
    "C27_isTheIdentity_partial"
   ],
   "note": "Proved with restrictions: [C27_isTheIdentity_partial] If every diagonal element is stored, isTheIdentity is right. Where the code does not do what the property says: [C27_isTheIdentity_refuted] isTheIdentity accepts the zero matrix."
  },
  {
   "property": "C28",
   "status": "partial",
   "theorems": [
    "C28_overwrites_refuted",
    "C28_same_dimensions_partial",
    "C28_zero_target_partial"
   ],
   "note": "Proved with restrictions: [C28_same_dimensions_partial] For a target that already has the dimensions of the sparse matrix: the elements stored in the sparse matrix are written, all others keep the old value. [C28_zero_target_partial] The conversion is right when every element of the target is zero before. Where the code does not do what the property says: [C28_overwrites_refuted] Converting into a used dense matrix of the same dimensions keeps what was there wherever the sparse matrix stores nothing."
  },
  {
   "property": "C29",
   "status": "partial",
   "theorems": [
    "C29_store_partial",
    "C29_store_stale_refuted",
    "C29_text_partial",
    "C29_text_empty_refuted",
    "C29_text_no_columns_refuted"
   ],
   "note": "Proved with restrictions: [C29_store_partial] A valid matrix with at least one stored element, written under a new name after any proper history of writes, reads back unchanged into any matrix. [C29_text_partial] A matrix with rows and columns, of dimensions below 2^31, reads back unchanged from its text, whatever the target was; the text after it is left. Where the code does not do what the property says: [C29_store_stale_refuted] A matrix of zeros, or without rows, read into a matrix that is not empty: columns and values of the old matrix stay. [C29_text_empty_refuted] A matrix without rows, read into any matrix, leaves that matrix as it is. [C29_text_no_columns_refuted] With rows but no columns the old matrix also stays, and part of the text is not consumed."
  },
  {
   "property": "C30",
   "status": "proved",
   "theorems": [
    "C30_access",
    "C30_access_outside",
    "C30_write",
    "C30_is_mat_unique",
    "C30_equality",
    "C30_constructors",
    "C30_resize",
    "C30_product",
    "C30_compound",
    "C30_assignments",
    "C30_identity",
    "C30_transpose",
    "C30_transpose_involutive",
    "C30_multiplyTransposeConjugate",
    "C30_matrix_vector",
    "C30_outerProduct",
    "C30_norm2_nonZeros"
   ],
   "note": "[C30_access] Element access stays inside the storage for indexes inside the dimensions, and is rejected outside them. [C30_write] Writing one element changes that element and no other. [C30_is_mat_unique] [is_mat] determines the matrix object. [C30_constructors] Constructors. [C30_resize] resize(rows, cols) keeps the columns that remain, zeroes new ones, and throws instead of changing a non-zero number of rows. [C30_product] m = t * a * b; [a] and [b] may be the assigned matrix. [C30_assignments] Assignments of sums and multiples, also when the assigned matrix [m] is an operand ([MSelf]). [C30_transpose] Transposes; the target may have any previous content with a compatible number of rows. [C30_transpose_involutive] Conjugate-transposing twice gives the same object back."
  },
  {
   "property": "C31",
   "status": "partial",
   "theorems": [
    "C31_store_partial",
    "C31_store_stale_refuted",
    "C31_round_trip_partial",
    "C31_other_rows_refuted",
    "C31_from_file",
    "C31_print"
   ],
   "note": "Proved with restrictions: [C31_store_partial] A matrix that is not empty, written under a new name after any proper history of writes, reads back unchanged into any matrix. [C31_round_trip_partial] A matrix reads back unchanged from its text into a matrix that is empty or has the same number of rows. Where the code does not do what the property says: [C31_store_stale_refuted] An empty matrix read into a matrix that is not empty: the old elements stay. [C31_other_rows_refuted] Reading into a matrix with another, positive number of rows throws."
  },
  {
   "property": "C32",
   "status": "partial",
   "theorems": [
    "C32_sort_partial",
    "C32_sort_exact_partial",
    "C32_single_zero_refuted",
    "C32_sort_after_fromChunk_refuted"
   ],
   "note": "Proved with restrictions: [C32_sort_partial]  [C32_sort_exact_partial] With an exact zero test the represented vector is unchanged, whatever the state of the vector, as long as it is not already marked as sorted. Where the code does not do what the property says: [C32_single_zero_refuted] sort() keeps a zero when there is only one entry, and does not mark the vector as sorted, so that operator== and scalarProduct then fail their asserts. [C32_sort_after_fromChunk_refuted] Filling a vector that was sorted before from a chunk leaves it marked as sorted, so that sort() keeps its zeros."
  },
  {
   "property": "C33",
   "status": "partial",
   "theorems": [
    "C33_scalarProduct",
    "C33_scalarProduct_single",
    "C33_equality_partial",
    "C33_equality_refuted"
   ],
   "note": "Proved with restrictions: [C33_equality_partial] Equality is right for two normalised vectors with the same number of stored entries. Where the code does not do what the property says: [C33_equality_refuted] operator== compares only as many entries as the right operand has: a vector equals each of its prefixes, and comparing with a longer vector reads past the end."
  },
  {
   "property": "C34",
   "status": "partial",
   "theorems": [
    "C34_finalize_partial",
    "C34_matrix_from_rows",
    "C34_matrix_vector",
    "C34_finalize_twice_refuted"
   ],
   "note": "Proved with restrictions: [C34_finalize_partial]  Where the code does not do what the property says: [C34_finalize_twice_refuted] finalize leaves the columns of the row object sorted but not its values: a second finalize of the same row pairs them wrongly."
  },
  {
   "property": "C35",
   "status": "partial",
   "theorems": [
    "C35_adds_partial",
    "C35_agrees_with_SparseRow",
    "C35_matrix_vector",
    "C35_cache_zero_refuted"
   ],
   "note": "Proved with restrictions: [C35_adds_partial]  Where the code does not do what the property says: [C35_cache_zero_refuted] With a cache of size zero the first add writes outside the buffers: doubling zero leaves no room."
  },
  {
   "property": "C36",
   "status": "partial",
   "theorems": [
    "C36_chain",
    "C36_chain_bonds",
    "C36_ladder",
    "C36_ladder_bonds",
    "C36_ladderx",
    "C36_ladderx_bonds",
    "C36_star",
    "C36_ladderbath",
    "C36_star_bonds",
    "C36_k2nif4",
    "C36_k2nif4_bonds",
    "C36_honeycomb",
    "C36_longrange_refuted"
   ],
   "note": "Where the code does not do what the property says: [C36_longrange_refuted] The long range lattice says of every site that it is connected to itself."
  },
  {
   "property": "C37",
   "status": "partial",
   "theorems": [
    "C37_chain_partial",
    "C37_chain_refuted",
    "C37_ladder",
    "C37_ladderx_partial",
    "C37_ladderx_refuted",
    "C37_star"
   ],
   "note": "Proved with restrictions: [C37_chain_partial] Open chain. [C37_ladderx_partial] LadderX with two legs and open ends. Where the code does not do what the property says: [C37_chain_refuted] In the periodic chain the bond that closes the ring shares its slot with the first one. [C37_ladderx_refuted] LadderX gives two bonds of one direction the same slot with three legs, and with periodic columns."
  },
  {
   "property": "C38",
   "status": "proved",
   "theorems": [
    "C38_chain_reflection",
    "C38_chain_translate",
    "C38_ladder_reflection",
    "C38_ladder_translate"
   ],
   "note": "[C38_chain_reflection] Chain: reflection is an involution that keeps connections."
  },
  {
   "property": "C39",
   "status": "partial",
   "theorems": [
    "C39_split_partial",
    "C39_accepts",
    "C39_split_refuted",
    "C39_connectionKind"
   ],
   "note": "Proved with restrictions: [C39_split_partial] When all blocks but the last go to the system, or the blocks are single sites, or the number of blocks is even or three, split divides the sites. Where the code does not do what the property says: [C39_split_refuted] Ten sites in blocks of two: site 5 is in two blocks and site 7 in none."
  },
  {
   "property": "C40",
   "status": "proved",
   "theorems": [
    "C40_index",
    "C40_three_orbitals_refuted"
   ],
   "note": "[C40_index] With two orbitals on the oxygen sites and one on the copper sites, every site and orbital has a number below the rank, no two have the same one, and every number below the rank is one of theirs. The property is proved as stated; stronger claims than it are refuted: [C40_three_orbitals_refuted] The numbering only knows two orbitals: a third one gets the number of the second."
  },
  {
   "property": "C41",
   "status": "partial",
   "theorems": [
    "C41_partial",
    "C41_odd_refuted",
    "C41_one_refuted"
   ],
   "note": "Proved with restrictions: [C41_partial] Even clusters of 2m sites with b bath sites each; the cluster is in the middle. Where the code does not do what the property says: [C41_odd_refuted] With an odd cluster one cluster site gets no bath site and another gets two. [C41_one_refuted] A cluster of one site cannot be used: asking about a bath site divides by zero."
  },
  {
   "property": "C42",
   "status": "partial",
   "theorems": [
    "C42_one_per_direction_partial",
    "C42_interior_partial",
    "C42_interior_refuted",
    "C42_one_per_direction_refuted"
   ],
   "note": "Proved with restrictions: [C42_one_per_direction_partial] Without periodic rows, and with an even number of rows if the columns are periodic: at most one neighbour in each direction. [C42_interior_partial] Sites inside, with y = 0 or 1 modulo 4, have one neighbour in each direction. Where the code does not do what the property says: [C42_interior_refuted] Sites inside with y = 2 or 3 modulo 4 have no neighbour in the Y direction: two neighbours, not three. [C42_one_per_direction_refuted] Two neighbours in one direction: with an odd periodic column length, and with periodic columns."
  },
  {
   "property": "C43",
   "status": "partial",
   "theorems": [
    "C43_order_partial",
    "C43_numbers",
    "C43_throw_refuted"
   ],
   "note": "Proved with restrictions: [C43_order_partial] On labels in which only numbers follow the at sign, the order is a strict weak order. Where the code does not do what the property says: [C43_throw_refuted] With anything else after '@' the comparison throws, so it is not an order of all labels."
  },
  {
   "property": "C44",
   "status": "partial",
   "theorems": [
    "C44_file_partial",
    "C44_data_partial",
    "C44_numbers_partial",
    "C44_no_newline_refuted",
    "C44_comment_refuted",
    "C44_remark_refuted"
   ],
   "note": "Proved with restrictions: [C44_file_partial] Any file that is well formed is read, and any series of requests gets the values of the labels. It is assumed that the file ends with a newline, that no comment is next after a vector, that remarks have a blank before '#', and that no label has both values and vectors. [C44_data_partial] The same for a text given as a string. [C44_numbers_partial] After any requests: an integer, a vector of numbers, a matrix (row by row, after its numbers of rows and columns). Where the code does not do what the property says: [C44_no_newline_refuted] A last line without a newline: the last character is read twice. [C44_comment_refuted] A comment after a vector: the vector is given to the label of the last line. [C44_remark_refuted] A remark with no blank before it: the value is lost."
  },
  {
   "property": "C45",
   "status": "partial",
   "theorems": [
    "C45_in_order_partial",
    "C45_shared_refuted",
    "C45_force_refuted"
   ],
   "note": "Proved with restrictions: [C45_in_order_partial] For files in which no label is used both for a text and for a vector: the i-th request for a label gets its i-th value, and the last one when there are no more. Where the code does not do what the property says: [C45_shared_refuted] A repeated label that is also the label of a vector: the vector is gone after the first read. [C45_force_refuted] Forcing the removal of a label that is not repeated erases past the end of a vector."
  },
  {
   "property": "C46",
   "status": "partial",
   "theorems": [
    "C46_readFile_partial",
    "C46_readFile_refuted"
   ],
   "note": "Proved with restrictions: [C46_readFile_partial] What is appended is the file and its last character once more. Where the code does not do what the property says: [C46_readFile_refuted] So no file is read as it is; an empty one gives a zero byte."
  },
  {
   "property": "C47",
   "status": "partial",
   "theorems": [
    "C47_readline_partial",
    "C47_missing_partial",
    "C47_last_partial",
    "C47_scalar",
    "C47_last_refuted",
    "C47_end_refuted",
    "C47_advance_partial",
    "C47_vector_partial",
    "C47_object_partial",
    "C47_vector_file",
    "C47_ended",
    "C47_object_end",
    "C47_empty_refuted",
    "C47_advance_last_refuted",
    "C47_advance_few_refuted"
   ],
   "note": "Proved with restrictions: [C47_readline_partial] Full statement: also for files whose last word is not followed by white space, and LAST_INSTANCE from every position. [C47_missing_partial] Too few words with the label: an exception [C47_last_partial] The last instance, from the beginning of the file [C47_advance_partial] The stream is right after the word asked for; without any, there is an exception. Full statement: also for LAST_INSTANCE, and for a level that is too large. [C47_vector_partial] Vectors that are not empty are read back, from right after the label. [C47_object_partial] So are other objects with an operator >>, such as matrices and stacks. Where the code does not do what the property says: [C47_last_refuted] LAST_INSTANCE after some of the instances were read: another one is returned. [C47_end_refuted] A last word without white space after it is not found. [C47_empty_refuted] An empty vector leaves the variable as it was. [C47_advance_last_refuted] LAST_INSTANCE is after the last but one, and at the beginning of the file if there is one only: what is read is not the last vector. [C47_advance_few_refuted] With a level that is too large, there is no exception if there is some instance, and the stream is at its end."
  },
  {
   "property": "C48",
   "status": "partial",
   "theorems": [
    "C48_count_partial",
    "C48_many_refuted"
   ],
   "note": "Proved with restrictions: [C48_count_partial] Full statement: also for 1000 words or more, which is an exception. Where the code does not do what the property says: [C48_many_refuted] So there is a file for which it does not return the number of words."
  },
  {
   "property": "C49",
   "status": "partial",
   "theorems": [
    "C49_history_partial",
    "C49_overwrite_objects_partial",
    "C49_rewrite_refuted",
    "C49_empty_refuted",
    "C49_empty_read_refuted",
    "C49_complex_refuted",
    "C49_type_refuted",
    "C49_string_refuted",
    "C49_objects_refuted"
   ],
   "note": "Proved with restrictions: [C49_history_partial] Any history of steps used as intended, on a new file: every name reads back the value last written, whatever the target held; a name that was not written cannot be read; and so it is after the file is closed and opened again. Missing for the full claim: empty vectors and strings, matrices without elements, changes of type, and the types that cannot be overwritten (see below). [C49_overwrite_objects_partial] Vectors of sparse matrices have an overwrite function of their own; it may make the vector shorter or longer. Where the code does not do what the property says: [C49_rewrite_refuted] A second write under a name is lost without an error. [C49_empty_refuted] An empty vector does not overwrite. [C49_empty_read_refuted] An empty vector or string is written without an error, but cannot be read. [C49_complex_refuted] Overwriting a vector of complex numbers writes it elsewhere; the old one stays. [C49_type_refuted] A vector of complex numbers overwritten by one of reals cannot be read as either. [C49_string_refuted] Strings and vectors of pairs cannot be overwritten. [C49_objects_refuted] A vector of sparse matrices written again with more elements, through the mode argument of write: no error, and the vector cannot be read any more."
  },
  {
   "property": "C50",
   "status": "partial",
   "theorems": [
    "C50_crash_partial",
    "C50_close",
    "C50_reopen_refuted",
    "C50_flush_refuted",
    "C50_open_refuted"
   ],
   "note": "Proved with restrictions: [C50_crash_partial] A process that created the file and stopped between two calls, before close, flush or destruction: whatever it wrote (names that are not the canary's own), the file cannot be opened for reading. Stops inside a call are not modelled. Where the code does not do what the property says: [C50_reopen_refuted] A file that was closed, opened again for writing, and changed: the canary of the first time is still there, and a stop is not noticed. So with a flush. [C50_flush_refuted] After a flush the file counts as closed properly, although a writer goes on writing to it. [C50_open_refuted] The member function open does not look at the canary: a reader opens a file that was not closed; and the file a writer opens has its canary from the start."
  },
  {
   "property": "C51",
   "status": "proved",
   "theorems": [
    "C51_round_trip",
    "C51_too_long"
   ],
   "note": "[C51_round_trip] Vectors of fewer than 2^32 booleans read back unchanged from the characters they are packed in. [C51_too_long] Longer vectors are packed, but the length is kept modulo 2^32."
  },
  {
   "property": "C52",
   "status": "partial",
   "theorems": [
    "C52_generic",
    "C52_arith_partial",
    "C52_input",
    "C52_input_refused",
    "C52_division_refuted",
    "C52_short_refuted"
   ],
   "note": "Proved with restrictions: [C52_arith_partial] Expressions over the real primitives, when no divisor is close to zero Where the code does not do what the property says: [C52_division_refuted] Dividing by a number whose square is below 10^-6 gives the dividend: 6 / (1 / 2000) is 6. [C52_short_refuted] An operator whose arguments are missing is not reported: its function is called with too few."
  },
  {
   "property": "C53",
   "status": "partial",
   "theorems": [
    "C53_predicate_partial",
    "C53_empty",
    "C53_function_refuted",
    "C53_loop_refuted",
    "C53_documented_refuted",
    "C53_zero_refuted"
   ],
   "note": "Proved with restrictions: [C53_predicate_partial] Every comma separated list of &-separated comparisons, for any variables: it is true exactly when one of its items has all its comparisons true. The values of the two sides of comparison number [j] of item number [k] are [vs !! k !! j]. Partial: names must not occur inside other tokens or inside the written values, and no divisor may be close to zero (see [meaning]). Where the code does not do what the property says: [C53_function_refuted] A name that occurs in a function name is replaced there too: \"log:l>0\" with l = 7 is taken for \"7og:7>0\", which is refused. [C53_loop_refuted] If the written value contains the name, the replacement never ends: the name \"e\" and 1e-05. [C53_documented_refuted] The example of the documentation, \"M=2,l%%2&l!=0,l>=7,l<11\", is refused because of its setting; without the setting it is true of every value from 0 to 20, also of 0, 1, 3 and 5. [C53_zero_refuted] A divisor of zero in %% is not checked."
  },
  {
   "property": "C54",
   "status": "partial",
   "theorems": [
    "C54_sum_partial",
    "C54_scalar_dropped_refuted",
    "C54_first_scalar_refuted",
    "C54_names_refuted"
   ],
   "note": "Proved with restrictions: [C54_sum_partial] A sum of terms, each with at least one item, is evaluated to the sum of the products of its factors. [Good] holds of the results that can be added and multiplied, such as square matrices of one size. Partial: every term needs an item, names must not look like numbers, and a minus sign is allowed only at the start of a term or of a parenthesis. Where the code does not do what the property says: [C54_scalar_dropped_refuted] A term without items is dropped: A+3 is A. [C54_first_scalar_refuted] If the first term has no items, the others are added to what the result was before: 3+A. [C54_names_refuted] -A is refused although the minus sign is preceded by nothing, and 2e is taken for the number 2."
  },
  {
   "property": "C55",
   "status": "proved",
   "theorems": [
    "C55_chebyshev",
    "C55_recurrence",
    "C55_negative"
   ],
   "note": "[C55_chebyshev] Both implementations compute the polynomial of every order, with recursion depth at most the order plus one. [C55_recurrence] The defining recurrence, so that what both compute is fixed without reference to [chebyshev]. [C55_negative] A negative order is not rejected: the recursion never ends, although T_(-m) = T_m."
  },
  {
   "property": "C56",
   "status": "proved",
   "theorems": [
    "C56_small",
    "C56_evaluations",
    "C56_lipschitz",
    "C56_continuous",
    "C56_root_may_be_far"
   ],
   "note": "[C56_small] What it returns is a point of the interval where the function is smaller than the tolerance; the function had opposite signs at the ends. [C56_evaluations] It never evaluates the function outside the interval, and at most maxIter+1 times after construction. [C56_lipschitz] For a Lipschitz function with opposite signs at the ends, maxIter iterations with L |b-a| < tol 2^maxIter are enough. [C56_continuous] For a continuous function with opposite signs at the ends and a positive tolerance, every large enough number of iterations succeeds. [C56_root_may_be_far] The comment in the code promises a value closer to a root than the tolerance. It is false: the only root of x/1000 is 0, and 1/2 is returned for the interval [-100,101] and the default tolerance."
  },
  {
   "property": "C57",
   "status": "proved",
   "theorems": [
    "C57_spline",
    "C57_line",
    "C57_refused"
   ],
   "note": "[C57_spline] On strictly increasing nodes the spline exists and is a function F defined exactly on the interval of the nodes. F takes the given values at the nodes, is a cubic between neighbouring nodes with Akima's derivatives at both ends, and has a continuous derivative. [C57_line] Straight lines are reproduced. [C57_refused] Vectors of different sizes or with fewer than three points are refused."
  },
  {
   "property": "C58",
   "status": "partial",
   "theorems": [
    "C58_dense_partial",
    "C58_hermitian",
    "C58_storage",
    "C58_stale_refuted",
    "C58_out_of_range"
   ],
   "note": "Proved with restrictions: [C58_dense_partial] Written to an empty matrix, n = 0 meaning all: a on the diagonal, b(i+1) above it and its conjugate below, and zero elsewhere. Partial: the destination must be empty, see the refutation below. Where the code does not do what the property says: [C58_stale_refuted] A destination that is not empty keeps its old elements outside the three diagonals."
  },
  {
   "property": "C59",
   "status": "partial",
   "theorems": [
    "C59_product",
    "C59_unsplit",
    "C59_tiles",
    "C59_no_rows_refuted",
    "C59_serial_build_refuted",
    "C59_offset_overflow_refuted"
   ],
   "note": "Where the code does not do what the property says: [C59_no_rows_refuted] With no rows and more columns than the block size, BLAS has nothing to do but the blocked product divides by zero. [C59_serial_build_refuted] Without pthreads, any product of at least two tiles is refused when more than one thread was asked for. [C59_offset_overflow_refuted] The offset of a tile in C is computed in [int]: for every N >= 65536, the product of two N x N matrices, whose array has 2^32 elements or more, is undefined when split (here in four), although every array is large enough and every argument of BLAS fits in an [int]."
  },
  {
   "property": "C60",
   "status": "partial",
   "theorems": [
    "C60_states_below",
    "C60_below_range_refuted",
    "C60_lanczos",
    "C60_returns",
    "C60_size",
    "C60_one_step_refuted",
    "C60_min_steps_refuted",
    "C60_state",
    "C60_tolerance_refuted",
    "C60_invariant_refuted",
    "C60_ground_state_refuted",
    "C60_stops",
    "C60_reortho"
   ],
   "note": "Where the code does not do what the property says: [C60_below_range_refuted] The claim that it throws if there are not enough Lanczos vectors for all the states asked for is false: if exactly one is missing, the column behind the last of the matrix of eigenvectors is read. [C60_one_step_refuted] The claim that any number of steps and any matrix is allowed is false: with one step, or a 1 x 1 matrix, b(1) is written although it does not exist. [C60_min_steps_refuted] The claim that minSteps is only a lower bound on the steps is false: for a matrix larger than 4, if minSteps is not below the number of steps that can be done, a vector is stored behind the last column. [C60_tolerance_refuted] The claim that the ground state is computed to the tolerance asked for is false: computeOneState with excited = 0 watches no eigenvalue at all, and so it stops after minSteps steps whatever the matrix and the tolerance. [C60_invariant_refuted] The claim that a start vector with a component along the ground state is good enough is false: with an eigenvector of a positive eigenvalue as start vector - the ground state itself, if H is positive definite - the tridiagonal matrix has the eigenvalue 0, which H need not have ... [C60_ground_state_refuted] ... so that computeOneState, asked for the ground state, throws."
  },
  {
   "property": "C61",
   "status": "partial",
   "theorems": [
    "C61_elements",
    "C61_vector_partial",
    "C61_vector_of_pairs_partial",
    "C61_stack_partial",
    "C61_stack_refuted",
    "C61_long_vector_refuted",
    "C61_strings_refuted",
    "C61_negative"
   ],
   "note": "Proved with restrictions: [C61_vector_partial] Vectors of fewer than 2^31 such elements come back, whatever the target held. [C61_vector_of_pairs_partial] Vectors of pairs have a format of their own, which is read as well. [C61_stack_partial] A stack comes back on top of what the target held. Where the code does not do what the property says: [C61_stack_refuted] A stack read into a stack that is not empty is not the one written. [C61_long_vector_refuted] The element count is read as an int: longer vectors are not read back. [C61_strings_refuted] Words with white space, and empty words, are not read back."
  },
  {
   "property": "C62",
   "status": "proved",
   "theorems": [
    "C62_strict",
    "C62_permissive",
    "C62_disabled"
   ],
   "note": "[C62_strict] Options."
  },
  {
   "property": "C63",
   "status": "partial",
   "theorems": [
    "C63_operator",
    "C63_site_partial",
    "C63_site_refuted",
    "C63_site_number",
    "C63_vector_partial",
    "C63_vector_access",
    "C63_vector_rejected_partial",
    "C63_vector_refuted"
   ],
   "note": "Proved with restrictions: [C63_site_partial] name[site]: the parts are what is outside and inside the last pair of brackets; text without brackets has no site; text with only one kind of bracket is rejected. The brackets may be any two different characters. [C63_vector_partial] Every vector specification in the grammar is recognised, bare or as ket |..>, or as bra <..|. [C63_vector_rejected_partial] A bare specification that does not start with P, Q, R or X is rejected, unless it is gs or time; so is one where something of at least two characters other than X.. follows the number after P or Q. Where the code does not do what the property says: [C63_site_refuted] A closing bracket before the opening one is accepted and part of the text is duplicated. [C63_vector_refuted] Malformed specifications that are accepted: a letter without a number, and text after the number; and one whose check reads beyond the end of the string."
  },
  {
   "property": "C64",
   "status": "partial",
   "theorems": [
    "C64_fit",
    "C64_recurrence",
    "C64_predict",
    "C64_polynomial",
    "C64_predict2",
    "C64_predict2_stable",
    "C64_order_refuted",
    "C64_predict2_count_refuted",
    "C64_refit_refuted",
    "C64_odd"
   ],
   "note": "Where the code does not do what the property says: [C64_order_refuted] An order above half the number of data reads before the first datum. [C64_predict2_count_refuted] predict2 with a number of points other than the order reads out of range. [C64_refit_refuted] linearPredictionfunction(y, p) on an existing object looks only at how many values y has, not at the values."
  },
  {
   "property": "C65",
   "status": "proved",
   "theorems": [
    "C65_scalarProduct",
    "C65_operator_times",
    "C65_inner_conj",
    "C65_assignments",
    "C65_compound",
    "C65_longer_operand",
    "C65_sum",
    "C65_index"
   ],
   "note": "[C65_scalarProduct] Inner products: [scalarProduct] is antilinear in its first argument, [operator*] in its second; vectors of different length are rejected. [C65_inner_conj] ... so that exchanging the arguments conjugates the result. [C65_assignments] Every closure assignment computes the expression it denotes, element by element, also when the assigned vector is one of the operands. [C65_compound] Compound assignments. [C65_longer_operand] Adding a longer vector writes out of bounds: the hypothesis on the lengths is needed. [C65_index] indexOrMinusOne finds the first occurrence."
  },
  {
   "property": "C66",
   "status": "partial",
   "theorems": [
    "C66_storage_partial",
    "C66_refused_options_refuted",
    "C66_no_threads",
    "C66_mpi_disabled",
    "C66_without_mpi",
    "C66_mpi_storage"
   ],
   "note": "Proved with restrictions: [C66_storage_partial] After any history of successful calls, threads 0 .. n-1 (n the configured number of threads, at either level) get different storage places, all within the storage size for n threads. Where the code does not do what the property says: [C66_refused_options_refuted] A call to setOptions that is refused has changed the number of threads all the same: asking for the storage for the configured number of threads then violates an assertion, for every refused number of threads but 1."
  },
  {
   "property": "C67",
   "status": "partial",
   "theorems": [
    "C67_parameters_partial",
    "C67_malformed_refuted"
   ],
   "note": "Proved with restrictions: [C67_parameters_partial] Every well formed file in which no label is repeated gives all parameters, each by the rule of [picks]. Nothing is said if a number is made of signs only or has a sign inside (such a text is accepted and converted by std::atoi). Where the code does not do what the property says: [C67_malformed_refuted] A parameter whose text is no number is not an error: the value of a smaller index or the default is used."
  },
  {
   "property": "C68",
   "status": "partial",
   "theorems": [
    "C68_history",
    "C68_errors",
    "C68_macros_partial",
    "C68_settled",
    "C68_self_reference",
    "C68_reserved",
    "C68_trailing_refuted",
    "C68_adjacent_refuted",
    "C68_order_refuted",
    "C68_required_refuted"
   ],
   "note": "Proved with restrictions: [C68_macros_partial] Macros: for any meaning W of the variables and any ranking of them (so that no variable depends on itself) such that the text of each variable, with each macro replaced by the meaning of the variable it names, is its own meaning: the variables then read as their meanings. It is assumed that every macro is followed by a character that ends its name, that there are no quotes inside the texts and no exclamation marks, and that no variable depends on others through more than 101 levels. Where the code does not do what the property says: [C68_trailing_refuted] A macro at the end of a value is not replaced, and is lost if there is another macro before it. [C68_adjacent_refuted] Two macros in a row are taken for one. [C68_order_refuted] What a value reads as depends on the order in which the variables were declared. [C68_required_refuted] The macros of a variable that must be read are not replaced."
  },
  {
   "property": "C69",
   "status": "partial",
   "theorems": [
    "C69_real_partial",
    "C69_matsubara",
    "C69_adds",
    "C69_grids_partial",
    "C69_short_range_refuted",
    "C69_order_refuted"
   ],
   "note": "Proved with restrictions: [C69_real_partial] A collection is plotted, on n = floor((omega2-omega1)/deltaOmega) >= 1 real frequencies, as the sum of its members. [C69_grids_partial] Two plots that are not empty and differ in length or in a frequency are refused. Where the code does not do what the property says: [C69_short_range_refuted] A range shorter than one step makes the plot write outside its storage. [C69_order_refuted] The order matters: a fraction whose plot is empty is ignored when it comes first and refused when it comes second."
  },
  {
   "property": "C70",
   "status": "partial",
   "theorems": [
    "C70_reference_seeding_refuted"
   ],
   "note": "Where the code does not do what the property says: [C70_reference_seeding_refuted] The initial words are not those of the reference MT19937."
  },
  {
   "property": "C71",
   "status": "partial",
   "theorems": [
    "C71_vecvec_refuted"
   ],
   "note": "Where the code does not do what the property says: [C71_vecvec_refuted] The product of a nested vector with a non-empty vector never returns: the inner loop tests the outer counter."
  },
  {
   "property": "C72",
   "status": "partial",
   "theorems": [
    "C72_in_place_refuted",
    "C72_in_place_partial"
   ],
   "note": "Proved with restrictions: [C72_in_place_partial] What does hold: products, sums and multiples may be assigned to an operand (see also C30_product, whose result does not depend on the target). Where the code does not do what the property says: [C72_in_place_refuted] Transposing a matrix into itself, or assigning a matrix-vector product to its own operand, does not give the transpose or the product."
  },
  {
   "property": "C73",
   "status": "partial",
   "theorems": [
    "C73_exp_refuted",
    "C73_exp_transposed_partial",
    "C73_exp_real_partial"
   ],
   "note": "Proved with restrictions: [C73_exp_transposed_partial] The transposed result applied to eigenvectors: sum_j m_ji u_jk = e_k u_ik. [C73_exp_real_partial] For a real element type the result is right: its eigenvectors are those of the matrix, with the function applied to the eigenvalues. Where the code does not do what the property says: [C73_exp_refuted] For a complex Hermitian matrix the result is not the function of the matrix."
  },
  {
   "property": "C74",
   "status": "partial",
   "theorems": [
    "C74_hermitian",
    "C74_isZero",
    "C74_isTheIdentity_partial",
    "C74_isTheIdentity_refuted"
   ],
   "note": "Proved with restrictions: [C74_isTheIdentity_partial] For square matrices isTheIdentity is right. Where the code does not do what the property says: [C74_isTheIdentity_refuted] A 1x2 matrix is accepted as an identity, and a 2x1 matrix is read out of bounds."
  },
  {
   "property": "C75",
   "status": "partial",
   "theorems": [
    "C75_checkValidity_refuted",
    "C75_checkValidity_partial"
   ],
   "note": "Proved with restrictions: [C75_checkValidity_partial] The check is right for matrices whose first row pointer is 0. Where the code does not do what the property says: [C75_checkValidity_refuted] checkValidity does not look at the first row pointer."
  },
  {
   "property": "C76",
   "status": "proved",
   "theorems": [
    "C76_equality",
    "C76_equality_canonical",
    "C76_norm2",
    "C76_multiplyTc"
   ],
   "note": "[C76_equality] Equality compares the representation. [C76_equality_canonical] On matrices with sorted columns and no stored zeros it is equality of the mathematical matrices."
  },
  {
   "property": "C77",
   "status": "partial",
   "theorems": [
    "C77_findPartition_partial",
    "C77_two_partitions_rejected",
    "C77_findPartition_refuted",
    "C77_toChunk_parts_partial",
    "C77_toChunk_partial",
    "C77_toChunk_refuted",
    "C77_chunk_round_trip"
   ],
   "note": "Proved with restrictions: [C77_findPartition_partial] [parts] = partition(0), partition(1), ... increasing offsets. The vector lies in partition p, and its last index is not the first of the partition. [C77_toChunk_parts_partial] toChunk(dest, parts) fills the chunk of the partition, whatever [dest] was. [C77_toChunk_partial] toChunk(dest, i0, total) sets the entries of the vector in the chunk... Where the code does not do what the property says: [C77_findPartition_refuted] A vector whose only index is the first one of a partition is rejected although it does not extend over more than one partition. A vector over two partitions whose last index is the first of the second one is accepted, and toChunk then writes past the end of the chunk. [C77_toChunk_refuted] ... but keeps what [dest] held where the vector has no entry, and its check accepts an index one past the end of the chunk."
  },
  {
   "property": "C78",
   "status": "proved",
   "theorems": [
    "C78_of_dense",
    "C78_scale",
    "C78_minus",
    "C78_norm2",
    "C78_isOne"
   ],
   "note": "[C78_of_dense]  [C78_norm2] norm squared is the sum of the squares of all elements, when no index occurs twice. [C78_isOne] isOne() holds exactly when at most one entry is not negligible."
  },
  {
   "property": "C79",
   "status": "proved",
   "theorems": [
    "C79_cached_values",
    "C79_hermitian",
    "C79_single"
   ],
   "note": "[C79_cached_values] The cached matrix returns, for connected sites, the value computed when it was built, and zero for the others. [C79_hermitian] With several orbitals the hopping matrix is Hermitian: exchanging the two ends conjugates the value. [C79_single] With one orbital it is not conjugated: a connector is the same in both orders of the sites, also if it is complex."
  },
  {
   "property": "C80",
   "status": "partial",
   "theorems": [
    "C80_chain_gap_partial",
    "C80_chain_value_partial",
    "C80_chain_gap_refuted"
   ],
   "note": "Proved with restrictions: [C80_chain_gap_partial] A chain with a gap between system and environment is the chain without the sites of the gap. [C80_chain_value_partial] The coupling across the gap is the one between the last system site and its right neighbour; all others are as without a gap. Where the code does not do what the property says: [C80_chain_gap_refuted] With LongChainDistance=2 two neighbouring system sites count as connected."
  },
  {
   "property": "C81",
   "status": "proved",
   "theorems": [
    "C81_last_entry"
   ],
   "note": "[C81_last_entry] Of entries appended one by one the last one is read, and each one is found by its number."
  },
  {
   "property": "C82",
   "status": "proved",
   "theorems": [
    "C82_resolvent"
   ],
   "note": "[C82_resolvent] If the diagonalisation is exact, then off the real axis the function is weight times the first element of the solution x of (z - s (Eg - T)) x = e_0, where T is the tridiagonal matrix with a on the diagonal and b next to it; and it is weight times the continued fraction 1 / (z - s (Eg - a_0) - (s b_1)^2 / (z - s (Eg - a_1) - ...))."
  },
  {
   "property": "C83",
   "status": "partial",
   "theorems": [
    "C83_forms_partial",
    "C83_sign_refuted",
    "C83_unit_refuted"
   ],
   "note": "Proved with restrictions: [C83_forms_partial] The forms that are read correctly. Where the code does not do what the property says: [C83_sign_refuted] a-bi is read as a+bi, a+-bi as a+bi, and -bi as -b, for all numbers without a plus sign in the exponent. [C83_unit_refuted] An imaginary unit without a number is dropped."
  },
  {
   "property": "C84",
   "status": "partial",
   "theorems": [
    "C84_vector",
    "C84_fill",
    "C84_repeat_partial",
    "C84_repeat_refuted",
    "C84_vector_errors_partial",
    "C84_vector_errors_refuted",
    "C84_matrix_partial",
    "C84_matrix_errors_partial",
    "C84_matrix_refuted"
   ],
   "note": "Proved with restrictions: [C84_repeat_partial] A value with a repeat count that is written in digits and is positive gives that many copies. [C84_vector_errors_partial] A text that is not that of a vector, and an element that is not a number, are errors. A text is that of one vector at most. [C84_matrix_partial] A matrix is read row by row. It must be empty before, or have as many rows. [C84_matrix_errors_partial] Rows of different sizes, an element that is not a number and a text that is not that of a matrix are errors; text after the closing bracket is not. Where the code does not do what the property says: [C84_repeat_refuted] N = 0 writes outside the vector. [C84_vector_errors_refuted] Text after the closing bracket is ignored, and a function name is looked up in one form of a vector and not in the other. [C84_matrix_refuted] Reading [] leaves the matrix as it was; reading a matrix with another number of rows is an error."
  },
  {
   "property": "C85",
   "status": "partial",
   "theorems": [
    "C85_complex_partial",
    "C85_complex_refuted"
   ],
   "note": "Proved with restrictions: [C85_complex_partial] The texts that are read as complex numbers: a number, i, -i, and the imaginary part after the letter i. Where the code does not do what the property says: [C85_complex_refuted] So the usual texts of complex numbers, which end in the letter i, are errors, except i and -i."
  },
  {
   "property": "C86",
   "status": "partial",
   "theorems": [
    "C86_moments",
    "C86_unique",
    "C86_eigenvector",
    "C86_decomposition_refuted",
    "C86_first_moment_refuted",
    "C86_decomposition_partial",
    "C86_negated",
    "C86_bounds_partial",
    "C86_bounds_refuted"
   ],
   "note": "Proved with restrictions: [C86_decomposition_partial] With storage of as many columns as wanted, the decomposition keeps the Chebyshev vectors in them. Its first two numbers are twice the moments 0 and 1, and as these are what it subtracts later, each further number is the moment less the first of its kind. [C86_bounds_partial] If the smallest energy is not positive and the largest not negative, the scaling found from them takes every energy between them into the interval from -1 to 1, so no Chebyshev vector of an eigenvector is longer than it. Where the code does not do what the property says: [C86_decomposition_refuted] But the decomposition that should collect the moments dereferences a null pointer on every solver object: the storage for the vectors, whose number of columns it asks for, is allocated nowhere before. [C86_first_moment_refuted] And with storage its first number would be twice the moment 0. [C86_bounds_refuted] Otherwise not: for energies from 5 to 6 the interval used is from 15 to 18, and the smallest energy is scaled to less than -7, whose second Chebyshev polynomial is more than 100."
  },
  {
   "property": "C87",
   "status": "partial",
   "theorems": [
    "C87_plot_partial",
    "C87_few_refuted",
    "C87_positive",
    "C87_weight",
    "C87_dirichlet_refuted"
   ],
   "note": "Proved with restrictions: [C87_plot_partial] On n = floor((omega2-omega1)/deltaOmega) >= 1 frequencies, the plot has at omega the density (g_0 mu_0 + 2 sum g_i mu_i T_i(x)) / sqrt(1 - x^2) at x = (omega + Eg - b)/a, with the kernel g asked for, if at least 6 moments are used. Where the code does not do what the property says: [C87_few_refuted] With fewer moments the message about the kernel reads outside its storage. [C87_dirichlet_refuted] Without a kernel the density of a positive measure can be negative: unit weight at -1, two moments."
  },
  {
   "property": "C88",
   "status": "partial",
   "theorems": [
    "C88_ground_partial",
    "C88_backward_partial",
    "C88_dense_refuted"
   ],
   "note": "Proved with restrictions: [C88_ground_partial] With exact numbers the method either gives up after maxCounter steps or returns the eigenvalues in ascending order, of the matrix where b(i) couples i and i+1. It reads nothing outside its vectors and does not divide by zero. Missing: that it does not give up. [C88_backward_partial] The test for a negligible element is |e| + dd == dd. If it only accepts elements up to u*dd, and accepts zero, then the values are the eigenvalues of a symmetric matrix close to the given one. Where the code does not do what the property says: [C88_dense_refuted] The matrix is not the one buildDenseMatrix gives, which LAPACK gets: there b(i+1) couples i and i+1."
  },
  {
   "property": "C89",
   "status": "proved",
   "theorems": [
    "C89_fermi",
    "C89_prime",
    "C89_log",
    "C89_log_decreasing_refuted"
   ],
   "note": "[C89_fermi] fermi is 1/(1+e^x) up to e^-50, and exactly so for |x| <= 50; it lies between 0 and 1, never increases, and f(x) + f(-x) = 1 exactly. [C89_prime] fermiPrime is within e^-50 of the derivative of 1/(1+e^x); it is even and never positive. [C89_log] logfermi is within e^-20 of the logarithm of 1/(1+e^x), and never positive. The property is proved as stated; stronger claims than it are refuted: [C89_log_decreasing_refuted] Unlike the logarithm of the Fermi function it increases, across x = 20."
  },
  {
   "property": "C90",
   "status": "partial",
   "theorems": [
    "C90_solve",
    "C90_linear",
    "C90_order",
    "C90_cubic",
    "C90_norm",
    "C90_norm_refuted",
    "C90_solveEx",
    "C90_last_refuted"
   ],
   "note": "Where the code does not do what the property says: [C90_norm_refuted] So the norm is not conserved. [C90_last_refuted] The last time is not reported: with t one step after t0 only the initial value is."
  },
  {
   "property": "C91",
   "status": "partial",
   "theorems": [
    "C91_statements",
    "C91_read",
    "C91_characters",
    "C91_rest",
    "C91_rest_refuted",
    "C91_no_value_refuted",
    "C91_last_semicolon_refuted",
    "C91_underscore_refuted",
    "C91_comment_refuted"
   ],
   "note": "Where the code does not do what the property says: [C91_rest_refuted] The claim that everything that is not a statement is an error is false: a single character behind the statements is ignored, whatever it is ... [C91_no_value_refuted] ... and so is an equal sign without a value. [C91_last_semicolon_refuted] The claim that the semicolon behind the last statement can be left out, or that this is an error, is false: what is read then lies behind the text. [C91_underscore_refuted] The claim that a value can be given to any declared name is false: a name that starts with letters, underscores and a letter is taken for a type and a name, so that a new variable is declared, and the old one stays as it is. [C91_comment_refuted] The claim that comments can be put anywhere is false: behind a value they belong to it; and the claim that an input may end with a comment is false if the line does not end."
  },
  {
   "property": "C92",
   "status": "partial",
   "theorems": [
    "C92_function",
    "C92_value",
    "C92_refused",
    "C92_comma_refuted",
    "C92_negative",
    "C92_blank_refuted",
    "C92_columns_refuted",
    "C92_long_refuted"
   ],
   "note": "Where the code does not do what the property says: [C92_comma_refuted] The separator is stored and not used: a file whose first line has a comma and no space is rejected although the comma was asked for. [C92_blank_refuted] A line of spaces is not taken as empty: it makes the file an error. [C92_columns_refuted] The check of the number of columns lets through a line that has one column too few. [C92_long_refuted] A line of 2048 characters or more that begins like a line of the table is never finished: no number of steps ends the reading."
  },
  {
   "property": "C93",
   "status": "proved",
   "theorems": [
    "C93_run_id",
    "C93_accepted",
    "C93_rejected",
    "C93_short",
    "C93_one_bit",
    "C93_check_digits",
    "C93_one_digit_refuted",
    "C93_signs_refuted"
   ],
   "note": "[C93_run_id] The identifier of a run is a number with the right two check digits, whatever the process and the time. [C93_accepted] Such identifiers are accepted by the check... [C93_rejected] ... and of all texts of digits whose number is below 2^63 no others are. [C93_one_bit] The check notices when one binary digit of the number changes, and when the check digits change. The property is proved as stated; stronger claims than it are refuted: [C93_one_digit_refuted] A changed decimal digit of the number may pass. [C93_signs_refuted] Texts that are not all digits are accepted too: signs count, and a negative number is taken modulo 2^64."
  },
  {
   "property": "C94",
   "status": "partial",
   "theorems": [
    "C94_numbers",
    "C94_pairs",
    "C94_vectors",
    "C94_root_refuted",
    "C94_communicator_refuted",
    "C94_matrices",
    "C94_sparse"
   ],
   "note": "Where the code does not do what the property says: [C94_root_refuted] The processes that receive are told by [root], but all send to process 0: with another root, the processes never end. [C94_communicator_refuted] With numbers and vectors, the messages go to the processes of COMM_WORLD whatever communicator is given: if process 1 of all is not one of those that gather, they never end. [root] is the first process of a communicator of p."
  },
  {
   "property": "C95",
   "status": "partial",
   "theorems": [
    "C95_bcast",
    "C95_bcast_pair",
    "C95_bcast_nested",
    "C95_complex_refuted",
    "C95_complex",
    "C95_reduce",
    "C95_all_reduce",
    "C95_number_partial",
    "C95_number_refuted",
    "C95_matrix",
    "C95_sparse",
    "C95_matrices",
    "C95_complex_matrix",
    "C95_complex_matrix_refuted",
    "C95_complex_sparse_refuted"
   ],
   "note": "Proved with restrictions: [C95_number_partial] The sum of one number of each process arrives at all of them if it fits in an int. Where the code does not do what the property says: [C95_complex_refuted] A vector of complex numbers is not resized: if another process has a vector of another size, anything may happen. [C95_number_refuted] The sum of one number of each process is received in an int: for a number that takes more than four bytes, as a double does, this writes past it. [C95_complex_matrix_refuted] ... with another size anything may happen: the matrix gets the new shape and keeps the old storage. [C95_complex_sparse_refuted] A process that has an empty sparse matrix, to be filled by the broadcast, is such a case."
  },
  {
   "property": "C96",
   "status": "partial",
   "theorems": [
    "C96_line",
    "C96_silent_partial",
    "C96_silent_refuted",
    "C96_print",
    "C96_message",
    "C96_reused_partial",
    "C96_reused_refuted",
    "C96_record",
    "C96_record_said",
    "C96_record_refuted",
    "C96_format_partial",
    "C96_format_refuted",
    "C96_profile"
   ],
   "note": "Proved with restrictions: [C96_silent_partial] Indicators of other threads or of other processes print nothing and record nothing; only [printMemoryUsage] while the recorder is on is not covered (C96_silent_refuted). [C96_reused_partial] Messages put one after another into the same stream, each printed when it is complete, appear as these messages as long as none is shorter than the one before it. [C96_format_partial] Printing puts the precision of the stream back. Where the code does not do what the property says: [C96_silent_refuted] Witness that the claim fails for printMemoryUsage: another process's (or thread's) indicator puts its message into the record. [C96_reused_refuted] Without that restriction the claim is false: printing moves the stream's position to the start but keeps its characters, so a shorter message is printed with the end of the longer one behind it. For any two messages the second line is the second message followed by what the first has beyond it. [C96_record_refuted] With printMemoryUsage among what is said the claim is false: a line that was recorded before it is no longer in the file. [C96_format_refuted] It does not put the format back: after any line, numbers printed to the stream are in fixed notation."
  },
  {
   "property": "C97",
   "status": "partial",
   "theorems": [
    "C97_update_partial",
    "C97_update_refuted",
    "C97_text_lines",
    "C97_entry_partial",
    "C97_absent",
    "C97_entry_refuted",
    "C97_time",
    "C97_millis_refuted",
    "C97_seconds_refuted"
   ],
   "note": "Proved with restrictions: [C97_update_partial] Reading the status file: if no line has 40240 characters or more, and there are no NULs, the object holds the text of the file and a newline; a file that cannot be opened leaves the object as it is. [C97_entry_partial] An entry is the rest of the line behind the first place where the label occurs, without the blanks it starts with. Where the code does not do what the property says: [C97_update_refuted] A file with a longer line is read for ever: no number of turns suffices. [C97_entry_refuted] An entry of blanks only is not empty: the last blank is left. [C97_millis_refuted] So [millis] gives seconds, not milliseconds: it is a thousandth of the number of milliseconds. [C97_seconds_refuted] [seconds] of an elapsed time is not the number of whole seconds elapsed: the microseconds may be negative."
  },
  {
   "property": "C98",
   "status": "partial",
   "theorems": [
    "C98_compact",
    "C98_compact_refuted",
    "C98_noninteger",
    "C98_dense_partial",
    "C98_dense_refuted",
    "C98_entangler",
    "C98_refused",
    "C98_translate"
   ],
   "note": "Proved with restrictions: [C98_dense_partial] A full matrix with one row and one column per site and orbital is taken as it is, and its elements are the values of the term. Where the code does not do what the property says: [C98_compact_refuted] A row about an orbital or a site that does not exist is not refused: orbital 2 of site 0 is taken as orbital 0 of site 1 where sites have two orbitals, a negative site is converted to an unsigned integer, which is undefined, and a site past the last is a write outside of the matrix. [C98_dense_refuted] A matrix of another size is not always refused: for two sites with one orbital a matrix of three rows and columns is accepted (with a warning), and so is one with a single column, which is then read outside."
  },
  {
   "property": "C99",
   "status": "partial",
   "theorems": [
    "C99_dup_partial",
    "C99_walk",
    "C99_moved",
    "C99_order_refuted",
    "C99_nested_refuted",
    "C99_vector",
    "C99_chunks_refuted",
    "C99_push",
    "C99_pair_refuted",
    "C99_save_load",
    "C99_save_chunks",
    "C99_load_refuted",
    "C99_label",
    "C99_fundamental"
   ],
   "note": "Proved with restrictions: [C99_dup_partial] dup copies chunks given in order of address into the new block: data is the same, null pointers are null, and every other pointer points, in the copy, to the copy of what it pointed to. Where the code does not do what the property says: [C99_order_refuted] A chunk given before one at a lower address, or before one that starts inside it, makes dup throw: the chunks are never sorted. [C99_nested_refuted] In particular no vector of two or more vectors, the first not empty, can be copied, wherever its parts lie. [C99_chunks_refuted] What dup does not do: a pointer that points outside of all chunks points, in the copy, neither there nor into the block; an empty chunk at the end makes it throw; a vector of 2^32 bytes is taken as having none. [C99_pair_refuted] A pair of integers of four bytes is not covered by its chunks: its second half is taken to be eight bytes after the first. [C99_load_refuted] The pointers are not adjusted to where the block is loaded: the vector loaded at address 50000 still points to where the original's copy would have been."
  },
  {
   "property": "C100",
   "status": "partial",
   "theorems": [
    "C100_numbers_partial",
    "C100_vector",
    "C100_matrix_partial",
    "C100_matrix_refused",
    "C100_map_partial",
    "C100_extension",
    "C100_long_refuted",
    "C100_size_refuted",
    "C100_complex_refuted",
    "C100_matrix_refuted",
    "C100_map_refuted"
   ],
   "note": "Proved with restrictions: [C100_numbers_partial] A label with a whole number that is an int: readline gives it to a long; to an unsigned number if it is not negative; a number gives its value to a floating variable. [C100_matrix_partial] A matrix of complex numbers: rows and columns, then the elements row by row. [C100_map_partial] Reading a map: if no label with a bracket is repeated, and those that have l in them are l[key] with a number, then the map gets the number of each key, and its other keys stay as they were. Where the code does not do what the property says: [C100_long_refuted] A number that fits in a long but not in an int cannot be read into a long. [C100_size_refuted] A negative number is read into an unsigned one as a huge number, not refused. [C100_complex_refuted] Complex numbers of vectors that are not well formed are not refused: a missing parenthesis, text after it. The form \"(1)\", which is accepted in matrices, is refused in vectors. [C100_matrix_refuted] Elements of matrices that are not numbers are not refused: the element stays what it was. [C100_map_refuted] Maps: a repeated label gives a key with the end of the label in it, and the entries of another label that ends with l are read under false keys."
  },
  {
   "property": "C101",
   "status": "partial",
   "theorems": [
    "C101_threads_partial",
    "C101_distinct",
    "C101_stack_refuted"
   ],
   "note": "Proved with restrictions: [C101_threads_partial] There are as many threads as asked for, but not more than tasks. If affinities are set, the threads for which the system accepts it get one processor each, of those of the process and in order, until none is left; the others, and all threads if affinities are not set, have no processors of their own. No stack size may be asked for. Where the code does not do what the property says: [C101_stack_refuted] Asking for a stack size is an error: it is set before the attributes of the thread are initialized."
  },
  {
   "property": "C102",
   "status": "partial",
   "theorems": [
    "C102_couplings_partial",
    "C102_refused",
    "C102_unknown",
    "C102_negative",
    "C102_kinds",
    "C102_missing_refuted",
    "C102_ignored_refuted",
    "C102_ring_refuted"
   ],
   "note": "Proved with restrictions: [C102_couplings_partial] A well formed input file that describes a geometry is read, and the value of each pair of sites in each term is the one the file gives its bond, in both orders of the sites; it is 0 for sites without a bond. Terms are chains, ladders and stars of one degree of freedom. Where the code does not do what the property says: [C102_missing_refuted] A file with connectors for one of two terms is not refused: the second term gets those of the first. So does the second direction of a ladder. [C102_ignored_refuted] A value of IsPeriodicX that is not a number is not refused: the chain is open. Neither is a distance that no two sites of the chain have: there are no bonds. [C102_ring_refuted] A periodic chain of 4 sites needs 4 connectors, but the bond that closes it, of sites 0 and 3, has the first of them, not the fourth, which is used for no bond."
  },
  {
   "property": "C103",
   "status": "partial",
   "theorems": [
    "C103_assign",
    "C103_unsorted",
    "C103_product",
    "C103_scaled",
    "C103_swap",
    "C103_left_refuted",
    "C103_not_shared",
    "C103_right_refuted",
    "C103_append_refuted",
    "C103_set_partial"
   ],
   "note": "Proved with restrictions: [C103_set_partial] At a place that is there, they store. Where the code does not do what the property says: [C103_left_refuted] The product written into its own left factor by multiply(x, x, y) is zero, whatever the factors. [C103_right_refuted] Written into its right factor, it is zero too, if it has as many rows. [C103_append_refuted] setCol_check and setValues_check do not append at the end: storing at the first place that is not there is undefined, and storing at the second puts it in the first."
  },
  {
   "property": "C104",
   "status": "partial",
   "theorems": [
    "C104_simplex",
    "C104_conjugate_gradient",
    "C104_first_error_refuted",
    "C104_leak_refuted",
    "C104_size_refuted"
   ],
   "note": "Where the code does not do what the property says: [C104_first_error_refuted] An error in the first iteration of conjugateGradient returns the number that success there returns: 0. [C104_leak_refuted] After an error, the vectors that were allocated for the call are never freed: two by simplex, one by conjugateGradient. [C104_size_refuted] A start with more numbers than the function has variables is stored past the end of the vector."
  },
  {
   "property": "C105",
   "status": "partial",
   "theorems": [
    "C105_diag_partial",
    "C105_geev_partial",
    "C105_inverse_partial",
    "C105_svd_partial",
    "C105_svd_refused",
    "C105_square_refuted",
    "C105_hermitian_refuted",
    "C105_empty_refuted",
    "C105_room_refuted",
    "C105_converged_refuted",
    "C105_large_refuted",
    "C105_reused_refuted",
    "C105_thread_safe_partial",
    "C105_thread_safe_refuted"
   ],
   "note": "Proved with restrictions: [C105_diag_partial] diag of a Hermitian matrix with rows: LAPACK gets valid arguments and enough memory whatever the size; an error of LAPACK is thrown; else the values are the eigenvalues, and with V the matrix has become the eigenvectors. [C105_geev_partial] geev of a square matrix, with room for the values and vectors: memory and errors as for diag; the values are eigenvalues and the vectors that are asked for are theirs. [C105_inverse_partial] inverse of a square matrix gives its inverse, or throws; so it throws for every matrix that has none. [C105_svd_partial] Svd with A or S, gesdd or gesvd, of every matrix with elements for which the numbers of workspace are ints: if LAPACK ends with INFO 0, the matrix has become the left vectors, and there are the singular values and the right vectors. It throws only if INFO is negative. The third argument must be empty or have the right number of rows. [C105_thread_safe_partial] LAPACK is thread safe from version 3.3 on. The test is right for versions before 4. Where the code does not do what the property says: [C105_square_refuted] A matrix that is not square is not refused: of a 2 by 3 matrix, diag decomposes another matrix, made of the first, fourth and fifth of the six elements, and inverse inverts the first two columns; inverse of a 2 by 1 matrix is undefined. [C105_hermitian_refuted] A matrix that is not Hermitian is not refused by diag: what is below the diagonal is not looked at. [C105_empty_refuted] diag of a matrix without rows throws for real elements, and is undefined for complex ones; so are inverse and Svd. [C105_room_refuted] geev does not make room for the values: with fewer values than rows it writes out of bounds. [C105_converged_refuted] A Svd that has not converged is not an error: INFO is positive for this matrix, and zeros come out. [C105_large_refuted] The workspace of the Svd of a large matrix is computed with an overflow, so from 14654 rows and columns on the call is undefined, whatever the library and even for real elements, which need no such workspace. [C105_reused_refuted] The right vectors of a Svd cannot be put into a matrix that was used for another number of them. [C105_thread_safe_refuted] It says no to version 4.0."
  },
  {
   "property": "C106",
   "status": "partial",
   "theorems": [
    "C106_chain_partial",
    "C106_chain_refuted",
    "C106_ladder_partial",
    "C106_ladder_refuted",
    "C106_ladderx_refuted",
    "C106_star",
    "C106_k2nif4",
    "C106_honeycomb",
    "C106_ladderbath_partial",
    "C106_ladderbath_refuted",
    "C106_geometry"
   ],
   "note": "Proved with restrictions: [C106_chain_partial] A chain that is periodic, or where the neighbours are at distance one, never loses more connections than maxConnections says. [C106_ladder_partial] A ladder that is periodic along its length, or open across it, never loses more. [C106_ladderbath_partial] A ladder with a bath of one site per cluster site never loses more than it says; nor does one with two, unless the ladder is periodic in both directions. Where the code does not do what the property says: [C106_chain_refuted] An open chain with neighbours farther away can lose more than maxConnections: it is always one. [C106_ladder_refuted] A ladder of three rows or more that is periodic across its length, and not along it, can lose one more. [C106_ladderx_refuted] A ladder with diagonals always loses more than it says when it is split between two columns. [C106_ladderbath_refuted] With three bath sites or more it loses more when all the bath of one side is split off; and with two when the ladder is periodic in both directions."
  },
  {
   "property": "C107",
   "status": "partial",
   "theorems": [
    "C107_no_gap",
    "C107_symmetric",
    "C107_ladder_partial",
    "C107_ladder_connected",
    "C107_connected_refuted",
    "C107_ladder_refuted",
    "C107_system_refuted",
    "C107_ladderx_partial",
    "C107_ladderx_refuted",
    "C107_star",
    "C107_longrange",
    "C107_k2nif4_partial",
    "C107_k2nif4_refuted",
    "C107_ladderbath",
    "C107_honeycomb",
    "C107_honeycomb_refuted"
   ],
   "note": "Proved with restrictions: [C107_ladder_partial] Ladders with columns of any length: if system and environment mirror each other, the coupling of a site of the system and one of the environment is that of the lattice where the environment was moved by whole columns up to the system. Full statement: also if the system does not have half a column yet, and for sites both in the system. [C107_ladderx_partial] LadderX with columns of two sites. Full statement: also for longer columns. [C107_k2nif4_partial] K2NiF4, when the system ends with the first or the last site of a cell: the environment is moved by whole cells of four sites up to the system. With three sites of the last cell, only its first site is coupled, to the copper-like site of the first cell of the environment. Full statement: also if it ends with the second site. Where the code does not do what the property says: [C107_connected_refuted] But not only those: sites at the two ends of the gap count as connected although they are not joined. [C107_ladder_refuted] A system with less than half a column is not coupled to the environment at all. [C107_system_refuted] The coupling of two sites of the system changes, too, if both are next to the gap, and for lattices given by a matrix an assertion fails. [C107_ladderx_refuted] With columns of four sites couplings are missing. [C107_k2nif4_refuted] There the coupling of sites 4 and 14 is missing, while sites 5 and 14, which are not joined in any cell, are coupled. [C107_honeycomb_refuted] The last site of the system is not looked at: a site of the environment joined to it only does not count as next to the gap."
  },
  {
   "property": "C108",
   "status": "partial",
   "theorems": [
    "C108_files",
    "C108_returns",
    "C108_refused",
    "C108_ranks_partial",
    "C108_ranks_refuted",
    "C108_reopen_refuted",
    "C108_closed_refuted",
    "C108_name_refuted",
    "C108_no_file_refuted",
    "C108_stream",
    "C108_later"
   ],
   "note": "Proved with restrictions: [C108_ranks_partial] The processes other than the first write nothing and create no file, as long as no number is written and the file is not closed... Where the code does not do what the property says: [C108_ranks_refuted] ... these two go through a null pointer. [C108_reopen_refuted] An attempt to open another file while one is open is refused; but from then on all lines and numbers are lost, without an error. [C108_closed_refuted] Lines written after close are lost without an error. [C108_name_refuted] A file that is called OSTREAM is taken for a stream of somebody else: it is not closed, and what is still in the buffer at the end is lost. [C108_no_file_refuted] An object without a file cannot be written to."
  },
  {
   "property": "C109",
   "status": "proved",
   "theorems": [
    "C109_redirect",
    "C109_killed",
    "C109_none",
    "C109_once"
   ],
   "note": "[C109_redirect] What is written before the first redirection that can be done goes to the terminal, all that is written afterwards to the file; when the program ends, it is all there, and the standard output is the terminal again. No other file changes. [C109_killed] If the program is killed at any moment, the file has the beginning of what was written, and all of it if the output is unbuffered. [C109_none] Without one, nothing changes. [C109_once] A redirection is done exactly if it is the first one whose file can be opened; it is then announced."
  },
  {
   "property": "C110",
   "status": "partial",
   "theorems": [
    "C110_range",
    "C110_numbers",
    "C110_period",
    "C110_all",
    "C110_rank_refuted",
    "C110_ranks_refuted",
    "C110_seeds_refuted",
    "C110_shared_refuted",
    "C110_seed_refuted",
    "C110_fill",
    "C110_fill_empty",
    "C110_fill_refuted"
   ],
   "note": "Where the code does not do what the property says: [C110_rank_refuted] A rank that is not below the number of ranks goes outside of the vector of seeds. [C110_ranks_refuted] Two ranks may get the same numbers: always if there are more than 10000, and with seed 1 already if there are 80. [C110_seeds_refuted] Two seeds may give the same numbers: among any 10001 seeds there are two that do. [C110_shared_refuted] The objects of a program share one state: an object that was made before another one goes on with the numbers of the new one. [C110_seed_refuted] Setting the seed of an object does not change its numbers. [C110_fill_refuted] There are at most 10000 such vectors of each size: among any 10001 times there are two with the same vector."
  },
  {
   "property": "C111",
   "status": "partial",
   "theorems": [
    "C111_mathematica",
    "C111_mathematica_unique",
    "C111_letters",
    "C111_letters_refused",
    "C111_nonzero_partial",
    "C111_nonzero_refuted",
    "C111_nonzero_ambiguous_refuted",
    "C111_cutoff",
    "C111_sparse",
    "C111_sparse_refuted"
   ],
   "note": "Proved with restrictions: [C111_nonzero_partial] The numbers that are not zero are printed row by row, a line for each row that has some, then those of the diagonal, if there are at least as many columns as rows... Where the code does not do what the property says: [C111_nonzero_refuted] ... else it goes outside of the matrix. [C111_nonzero_ambiguous_refuted] Different matrices have the same text: the columns are not printed. [C111_sparse_refuted] A sparse matrix that is printed with letters and has too many values is cut off, and no error is reported."
  },
  {
   "property": "C112",
   "status": "partial",
   "theorems": [
    "C112_changed",
    "C112_twice",
    "C112_back",
    "C112_hermitian",
    "C112_trace",
    "C112_sizes_refuted",
    "C112_rows_refused",
    "C112_columns_refuted",
    "C112_empty_refuted"
   ],
   "note": "Where the code does not do what the property says: [C112_sizes_refuted] Sizes that do not fit are not always noticed: if m has fewer rows than T and at least as many columns, rows of T are left out of the first product, and columns of m of the second, and there is a result. [C112_columns_refuted] If m has fewer columns than T has rows, the program reads outside of the first product. [C112_empty_refuted] A matrix without rows or columns is outside of what is allowed, also where the sizes fit."
  },
  {
   "property": "C113",
   "status": "partial",
   "theorems": [
    "C113_made",
    "C113_read",
    "C113_write",
    "C113_separate",
    "C113_shared",
    "C113_whole",
    "C113_outside",
    "C113_empty_refuted",
    "C113_huge_refuted"
   ],
   "note": "Where the code does not do what the property says: [C113_empty_refuted] A view without elements at the start of a vector of fewer than 2^64 elements is refused, that of an empty matrix too: the last place is computed below 0. [C113_huge_refuted] A view of 2^32 rows and columns at place 1 is made of any vector with an element, though nearly all its places are outside."
  },
  {
   "property": "C114",
   "status": "partial",
   "theorems": [
    "C114_plain",
    "C114_extension_partial",
    "C114_extension_refuted"
   ],
   "note": "Proved with restrictions: [C114_extension_partial] ... and of one with an extension it is right exactly if the name is one longer than the extension... Where the code does not do what the property says: [C114_extension_refuted] ... since it has as many characters as the extension with its point."
  },
  {
   "property": "C115",
   "status": "partial",
   "theorems": [
    "C115_direction",
    "C115_connected",
    "C115_sign",
    "C115_orbitals",
    "C115_total",
    "C115_total_refuted",
    "C115_bath"
   ],
   "note": "Where the code does not do what the property says: [C115_total_refuted] ... but with no other number."
  },
  {
   "property": "C116",
   "status": "partial",
   "theorems": [
    "C116_enabled",
    "C116_points",
    "C116_different",
    "C116_number_refuted",
    "C116_above_refuted",
    "C116_int_refuted",
    "C116_empty_refuted",
    "C116_default"
   ],
   "note": "Where the code does not do what the property says: [C116_number_refuted] There are as many points as were asked for only if that number is a square. [C116_above_refuted] A number of a point that is not on the mesh is not refused: it is above the square. [C116_int_refuted] On a mesh of 2^32 points, the one in the middle is below the square: its number is too large for an int. [C116_empty_refuted] Without points there is a division by zero."
  },
  {
   "property": "C117",
   "status": "proved",
   "theorems": [
    "C117_stack",
    "C117_stack_refused",
    "C117_pair"
   ],
   "note": "[C117_stack] A stack written under a new name is empty afterwards. It is read back with the same top, and on top of what the stack read into held; and as a vector it is read from the top on. All other values stay. [C117_stack_refused] A stack is not written under the name of a group, and nothing is written over with a stack. [C117_pair] A pair of a number and a matrix is read back as it was written, and all other values stay."
  },
  {
   "property": "C118",
   "status": "proved",
   "theorems": [
    "C118_norm",
    "C118_real",
    "C118_multiple",
    "C118_schwarz",
    "C118_triangle",
    "C118_unit"
   ],
   "note": "[C118_norm] The norm of a complex vector is the root of the sum of the squares of the absolute values, and never throws; it is zero exactly for a vector of zeros. [C118_real] The norm of a real vector is that of the same numbers as complex ones. [C118_multiple] A multiple has the norm times the absolute value of the number. [C118_schwarz] The absolute value of a scalar product is at most the product of the norms. [C118_triangle] The norm of a sum is at most the sum of the norms. [C118_unit] A vector that is not zero divided by its norm has the norm one, and multiplied by it is the vector again."
  },
  {
   "property": "C119",
   "status": "proved",
   "theorems": [
    "C119_term",
    "C119_places",
    "C119_direction",
    "C119_matrices"
   ],
   "note": "[C119_term] A term prints, after a comment, a row for each orbital of each site and in it a word for each orbital of each site: the coupling where the two sites are connected, and 0 where they are not. [C119_places] The rows and the words of a row are as many as the orbitals of all sites; with the same number n for each site, orbital d of site i is number i n + d. [C119_direction] A direction prints its flags, how many numbers it has, and them in order. [C119_matrices] A direction with matrices, which are for more than one orbital or for specific ones, prints its flags, how many matrices it has, and them in order."
  },
  {
   "property": "C120",
   "status": "partial",
   "theorems": [
    "C120_calls",
    "C120_next",
    "C120_lanczos",
    "C120_reuse_refuted",
    "C120_swap"
   ],
   "note": "Where the code does not do what the property says: [C120_reuse_refuted] The claim that a solver can be used again for another state is false: the ground state is found with minSteps + 1 vectors (C60_tolerance_refuted), and after it no other call has more, even where a new solver takes more."
  },
  {
   "property": "C121",
   "status": "partial",
   "theorems": [
    "C121_fraction",
    "C121_collection",
    "C121_empty_refuted",
    "C121_old",
    "C121_old_refuted"
   ],
   "note": "Where the code does not do what the property says: [C121_empty_refuted] The claim that every collection is read back is false: one without fractions is refused. [C121_old_refuted] The claim that old files with more fractions are read is false: looking for the kind of frequency, the reader goes back to the beginning of the file, so the second fraction gets the weight, the energy and the sign of the first, and a third one the matrix of the second."
  },
  {
   "property": "C122",
   "status": "partial",
   "theorems": [
    "C122_record",
    "C122_twice",
    "C122_end_refuted"
   ],
   "note": "Where the code does not do what the property says: [C122_end_refuted] The claim that a record that cannot be written is refused is false: after the end of the run it is lost without an error if there was no record before, and if it was written before, the earlier time stays."
  },
  {
   "property": "C123",
   "status": "partial",
   "theorems": [
    "C123_unsigned_sum",
    "C123_unsigned_product",
    "C123_unsigned_max_partial",
    "C123_unsigned_max_refuted",
    "C123_complex_sum",
    "C123_complex_product_refuted",
    "C123_matrix_partial",
    "C123_matrix_shape_refuted"
   ],
   "note": "Proved with restrictions: [C123_unsigned_max_partial] The largest and the smallest of the numbers arrive at all processes, if all numbers are below 2^63. Missing for the full claim: larger numbers, for which it is false (see below). [C123_matrix_partial] The sum over the processes of matrices of one shape, which is not empty, arrives at all of them, with that shape. Where the code does not do what the property says: [C123_unsigned_max_refuted] A number from 2^63 on counts as negative: the largest of it and a number below 2^63 is said to be the latter. [C123_complex_product_refuted] The claim that the product arrives is false for complex numbers: the real parts and the imaginary parts are multiplied, so the product of i and i is said to be i. [C123_matrix_shape_refuted] The claim that matrices of different shapes are refused is false: only the numbers of their elements count."
  },
  {
   "property": "C124",
   "status": "partial",
   "theorems": [
    "C124_geometry_partial",
    "C124_taken",
    "C124_dofs_refuted"
   ],
   "note": "Proved with restrictions: [C124_geometry_partial] After any history of steps, a geometry is written under a new label, and other steps follow. After the file is closed and opened again, everything that was written of the geometry can be read under its label: the number of sites, and for every term and every direction its numbers, options and matrices. The values written before stay as they were. Missing for the full claim: options that are empty, and the degrees of freedom of a direction (see below). Where the code does not do what the property says: [C124_dofs_refuted] The claim that everything the directions have is in the file is false: whatever their degrees of freedom are, the file is the same."
  },
  {
   "property": "C125",
   "status": "partial",
   "theorems": [
    "C125_number_partial",
    "C125_large_refuted",
    "C125_vector_partial",
    "C125_taken"
   ],
   "note": "Proved with restrictions: [C125_number_partial] After any history of steps an enumerator is written under a new name, perhaps another one is written over it, and other steps follow. After the file is closed and opened again, the enumerator that is read is the last one written exactly if its number is at least 0 and less than 256. The values written before stay as they were. Missing for the full claim: the other numbers, for which it is false (see below). [C125_vector_partial] After any history of steps a vector of enumerators is written under a new name, and other steps follow. After the file is closed and opened again, the vector can be read, whatever the target held, and it is the one that was written exactly if the numbers of all enumerators are at least 0 and less than 256. The values written before stay as they were. Missing for the full claim: the other numbers, for which it is false. Where the code does not do what the property says: [C125_large_refuted] The claim that every enumerator can be kept is false: one with the number 256 is read as the one with the number 0."
  }
 ]
}
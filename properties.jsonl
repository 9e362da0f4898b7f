{"id": "C01", "title": "Rebasing a dyadic never changes its value", "statement": "Dyadic.rebase(resolution) leaves the represented number k*2^-n unchanged, whatever it returns, as long as the shift does not overflow the 32-bit multiplier; it returns true exactly when the stored power equals the (possibly clamped) requested resolution; and when it lowers the power it stops at the coarsest power that still represents the value exactly.", "quantifier": "every 32-bit multiplier, every power and every requested resolution", "why_tests_cant": "the multiplier/power/resolution space is about 2^96 triples and the loop count depends on divisibility of the multiplier", "anchors": ["intervals/src/dyadic.cpp:Dyadic::rebase", "intervals/include/roughpy/intervals/dyadic.h:Dyadic::shift, Dyadic::mod"]}
{"id": "C02", "title": "Comparison of dyadics against the numeric order", "statement": "rational_equals(a,b) holds exactly when a and b denote the same number, and dyadic_equals exactly when they are the same pair. The relational operators <, <=, >, >= agree with the numeric order when both sides carry the same power; for unequal powers they do not (1 < 1/2 is reported true), so they are not a numeric order.", "quantifier": "all pairs of dyadics whose rescaling does not overflow", "why_tests_cant": "agreement on sampled pairs says nothing about other power differences; the failing region is where powers differ", "anchors": ["intervals/src/dyadic.cpp:operator<, operator<=, operator>, operator>=, rational_equals, dyadic_equals"]}
{"id": "C03", "title": "A dyadic interval built around a parameter contains it and has length 2^-n", "statement": "Constructing a dyadic interval from a real parameter, a resolution n and an interval type gives an interval with included and excluded ends exactly 2^-n apart, inf < sup, containing the parameter (as a point of the half-open interval of that type), and no other dyadic interval of that type and resolution contains the parameter.", "quantifier": "all real (rational) parameters, all resolutions, both interval types", "why_tests_cant": "floating parameter space is unbounded; off-by-one at exact dyadic points only shows at measure-zero inputs", "anchors": ["intervals/src/dyadic_interval.cpp:DyadicInterval(param_t,resolution,itype), dincluded_end, dexcluded_end, inf, sup"]}
{"id": "C04", "title": "contains_dyadic is set inclusion; dyadic intervals of one type are nested or disjoint", "statement": "For two dyadic intervals of the same type, contains_dyadic(outer, inner) is true exactly when every point of inner is a point of outer; and any two dyadic intervals of the same type are either nested or share no point. It is false whenever the types differ.", "quantifier": "all pairs of dyadic intervals (multipliers, powers, types)", "why_tests_cant": "needs all pairs of multipliers and powers, including negative multipliers where integer division rounding differs", "anchors": ["intervals/src/dyadic_interval.cpp:DyadicInterval::contains_dyadic"]}
{"id": "C05", "title": "Halving splits an interval exactly; expanding a clopen interval returns the parent", "statement": "The left and right halves of a dyadic interval are disjoint, abut, and together have exactly the points of the interval; k-fold left (right) shrinking keeps the left (right) end. Expanding a clopen interval by k gives the unique coarser dyadic interval of that power containing it, and expanding a half gives back the parent. Expanding an open-closed interval silently changes its type to clopen.", "quantifier": "all dyadic intervals, all k", "why_tests_cant": "boundary behaviour depends on parity and sign of the multiplier at every level", "anchors": ["intervals/src/dyadic_interval.cpp:shrink_interval_left, shrink_interval_right, shrink_to_contained_end, shrink_to_omitted_end, expand_interval, flip_interval"]}
{"id": "C06", "title": "Dyadic dissection tiles the query interval", "statement": "For a clopen interval, to_dyadic_intervals(interval, resolution) terminates and returns dyadic intervals, each no finer than the resolution, in increasing order, consecutive ones abutting, whose union is exactly [floor(inf), floor(sup)) rounded down to the resolution grid; if the two ends round to the same grid point the result is empty. For an open-closed interval the expansion loop never meets its exit condition.", "quantifier": "all real (rational) clopen intervals with inf<=sup and all resolutions", "why_tests_cant": "number and shape of pieces varies with every endpoint; termination cannot be tested", "anchors": ["intervals/src/dyadic_interval.cpp:to_dyadic_intervals"]}
{"id": "C07", "title": "The dyadic-interval ordering is safe as a map key order", "statement": "The operator< on dyadic intervals used as the key order of the stream caches is irreflexive and transitive on intervals of one type, and two intervals are equivalent under it only when they are the same interval, so a cache never confuses two intervals.", "quantifier": "all triples of dyadic intervals of the same type", "why_tests_cant": "transitivity is a property of triples over an unbounded set", "anchors": ["intervals/src/dyadic_interval.cpp:operator<", "streams/include/roughpy/streams/dyadic_caching_layer.h:m_cache"]}
{"id": "C08", "title": "Interval intersection and union", "statement": "intersection(a,b) of two intervals that overlap has inf=max of infs and sup=min of sups; union has inf=min and sup=max and contains both. The result type is always clopen whatever the arguments. When the arguments do not overlap, intersection returns [0,1), not a degenerate interval.", "quantifier": "all pairs of intervals", "why_tests_cant": "the disjoint case and the mixed-type case each need all inputs", "anchors": ["intervals/src/intersection_and_union.cpp:intersection, interval_union"]}
{"id": "C09", "title": "Point membership, containment and overlap queries mean what they say", "statement": "For intervals with inf<sup: contains_point(x) is membership in the half-open set of the interval's type; for two intervals of the same type, contains(b) is set inclusion and intersects_with(b) is true exactly when they share a point.", "quantifier": "all intervals and points", "why_tests_cant": "boundary coincidences are measure-zero in random testing", "anchors": ["intervals/src/interval.cpp:contains_point, contains, intersects_with, is_associated"]}
{"id": "C10", "title": "A partition tiles its interval under every sequence of edits", "statement": "After construction from any list of points and any sequence of insert_intermediate, refine_midpoints and (overlapping) merge, the pieces returned by operator[] are in order, abut, start at inf and end at sup of the partition, size() is the number of pieces, and refine_midpoints exactly doubles the number of pieces. mesh() is the smallest piece length. Merging disjoint partitions loses both sides' intermediate points.", "quantifier": "all intervals, all point lists and all finite edit histories", "why_tests_cant": "histories of edits are unbounded", "anchors": ["intervals/src/partition.cpp:Partition, refine_midpoints, insert_intermediate, merge, mesh, operator[]"]}
{"id": "C11", "title": "segment() finds the maximal dyadic pieces inside a set", "statement": "segment(interval, predicate, depth) ends without error for every predicate on an interval with inf<sup (and depth <= 28); if the predicate holds of the interval it returns just that; otherwise each answer is a row of adjacent scaled dyadic cells of depth 1..depth on each of which the predicate held, in increasing order of right end. If the predicate asks for inclusion in a set S inside the interval, the answers lie in S, are separated, cover every such cell lying in S and cannot be enlarged by a cell of the finest depth. For other predicates the answers may fail the predicate, overlap, or stick out of the interval.", "quantifier": "all predicates, sets, intervals and depths up to 28", "why_tests_cant": "predicates are arbitrary functions and the search state is a growing map", "anchors": ["intervals/src/dyadic_searcher.cpp", "intervals/src/segmentation.cpp", "intervals/src/scaled_predicate.cpp"]}
{"id": "C12", "title": "Tensor coordinates and words correspond one-to-one", "statement": "For every width and depth, degree_begin[d] is the number of words of length <d, the map word -> degree_begin[len]+base-width index is a bijection from words of length <= depth onto 0..size-1, concatenation of words is index arithmetic, and unpack/pack of letters are mutually inverse.", "quantifier": "all widths >=1, depths and words", "why_tests_cant": "unbounded widths and depths", "anchors": ["roughpy/compute/_src/tensor_basis.c:construct_tensor_db", "roughpy/compute/_src/call_config.cpp:to_basis", "roughpy_compute/common/basis.hpp:unpack_index_to_letters, pack_masked_index"]}
{"id": "C13", "title": "ft_fma adds exactly the truncated free product, and touches nothing else", "statement": "ft_fma(out,lhs,rhs) with arrays of the size of the basis performs only in-bounds accesses and leaves, for every word w of length at most out_depth, out[w] = old out[w] + sum over all splittings w=uv with |u|<=lhs_depth, |v|<=rhs_depth of lhs[u]*rhs[v]; every other entry of out is unchanged.", "quantifier": "all widths, depths, degree bounds, array contents over any commutative ring", "why_tests_cant": "exponentially many coordinates and all ring elements", "anchors": ["roughpy_compute/dense/basic/free_tensor_fma.hpp:ft_fma", "roughpy/compute/_src/dense_basic.cpp:DenseFTFma"]}
{"id": "C14", "title": "In-place multiplication equals out-of-place multiplication", "statement": "ft_inplace_mul(a,b) leaves in a exactly the truncated product of the old a with b (for every pair of degree bounds), although a is overwritten while it is still being read.", "quantifier": "all widths, depths, contents", "why_tests_cant": "order-of-overwrite bugs appear only at particular degrees", "anchors": ["roughpy_compute/dense/basic/free_tensor_inplace_mul.hpp:ft_inplace_mul"]}
{"id": "C15", "title": "The products computed by the library satisfy the algebra laws", "statement": "ft_mul is associative, has the unit tensor as two-sided identity, is bilinear, and truncation commutes with it: computing at a lower depth gives the truncation of the result at a higher depth.", "quantifier": "all tensors of all widths and depths over any commutative ring", "why_tests_cant": "identities over infinitely many tensors", "anchors": ["roughpy/compute/__init__.py:ft_mul", "roughpy_compute/dense/basic/free_tensor_fma.hpp"]}
{"id": "C16", "title": "The antipode reverses words with sign, is an involution and inverts signatures", "statement": "antipode(a)[w] = (-1)^|w| a[reverse w] for all |w|<=depth (depth>=1); antipode(antipode a)=a; antipode(a*b)=antipode(b)*antipode(a); antipode(exp x) is the inverse of exp x for x in the Lie algebra / degree one. At depth 0 the kernel writes outside a size-one array.", "quantifier": "all widths, depths, tensors", "why_tests_cant": "per-degree kernels; every tile/permutation position must be right", "anchors": ["roughpy_compute/dense/basic/free_tensor_antipode.hpp:ft_antipode", "roughpy/compute/__init__.py:antipode"]}
{"id": "C17", "title": "ft_exp is the truncated exponential series", "statement": "ft_exp(x)[w] = sum_{k<=depth} (x - x_empty)^k[w]/k! for every word w up to the depth, for every x (the constant term of x is ignored), with no out-of-bounds access.", "quantifier": "all widths, depths, x over any commutative Q-algebra", "why_tests_cant": "Horner loop with shrinking truncation levels; correctness is an induction over degree", "anchors": ["roughpy_compute/dense/intermediate/free_tensor_exp.hpp:ft_exp"]}
{"id": "C18", "title": "ft_log is the truncated logarithm series", "statement": "With the zero-initialised output the Python wrapper supplies, ft_log(x)[w] = sum_{1<=k<=depth} (-1)^(k+1) (x - x_empty)^k[w]/k. If the output buffer's first entry is not zero on entry, that value leaks into the result.", "quantifier": "all widths, depths, x, and all initial output contents", "why_tests_cant": "depends on uninitialised/previous contents of the output", "anchors": ["roughpy_compute/dense/intermediate/free_tensor_log.hpp:ft_log", "roughpy/compute/__init__.py:ft_log"]}
{"id": "C19", "title": "ft_fmexp(A,x) = A * exp(x)", "statement": "The fused multiply-exponential returns exactly the truncated product of A with the truncated exponential of x, for every A and x, whatever the output buffer contained.", "quantifier": "all widths, depths, A, x, initial out contents", "why_tests_cant": "garbage in higher levels is present during the Horner loop and must provably be overwritten", "anchors": ["roughpy_compute/dense/intermediate/free_tensor_fmexp.hpp:ft_fmexp"]}
{"id": "C20", "title": "exp and log are mutually inverse", "statement": "ft_log(ft_exp(x)) = x for every x with zero constant term and ft_exp(ft_log(g)) = g for every g with constant term one, exactly, at every width and depth.", "quantifier": "all tensors over any commutative Q-algebra", "why_tests_cant": "an identity between nested infinite families of polynomials", "anchors": ["roughpy_compute/dense/intermediate/free_tensor_exp.hpp", "roughpy_compute/dense/intermediate/free_tensor_log.hpp"]}
{"id": "C21", "title": "Adjoint of left multiplication", "statement": "With equal depths, <A*x, s> = <x, ft_adjoint_left_mul(A,s)> for all A, x, s (pairing = sum of products of coordinates). When the output is truncated below the argument, terms are dropped and the identity fails.", "quantifier": "all A,x,s, widths and depths", "why_tests_cant": "bilinear identity over all tensors", "anchors": ["roughpy_compute/dense/basic/free_tensor_adjoint_left_mul.hpp:ft_adj_lmul", "roughpy/compute/__init__.py:ft_adjoint_left_mul"]}
{"id": "C22", "title": "st_mul is the shuffle product", "statement": "st_fma(out,lhs,rhs) adds to out[w] the sum over all subsets of positions of w of lhs[subword]*rhs[complementary subword], in bounds for equal depths; the resulting product is commutative, associative, bilinear with the empty word as unit, and agrees with the usual recursive definition of shuffling.", "quantifier": "all widths, depths, contents", "why_tests_cant": "exponential number of masks per word", "anchors": ["roughpy_compute/dense/basic/shuffle_tensor_product.hpp:st_fma"]}
{"id": "C23", "title": "Signatures satisfy the shuffle identity", "statement": "If g = exp of a Lie (primitive) element, or any product of such, then <g, u shuffle v> = <g,u><g,v> for all words u, v with |u|+|v| <= depth.", "quantifier": "all increments, all numbers of factors, all words", "why_tests_cant": "infinitely many words and paths", "anchors": ["roughpy/compute/__init__.py:ft_exp, ft_fmexp, st_mul"]}
{"id": "C24", "title": "Sparse linear maps are applied exactly and in bounds", "statement": "apply_sparse_linear_map adds op(M x) to out for both row- and column-compressed matrices with valid index arrays, whatever x and M, touching only in-range entries.", "quantifier": "all valid compressed matrices and vectors", "why_tests_cant": "index arrays are arbitrary", "anchors": ["roughpy_compute/dense/basic/apply_sparse_linear_map.hpp", "roughpy/compute/_src/dense_basic.cpp:get_sparse_matrix"]}
{"id": "C25", "title": "Strided arrays give the same answer as contiguous arrays", "statement": "A kernel run on a strided view whose stride is 1 computes what it computes on a contiguous array. For any other stride the offset arithmetic of the view is wrong from level 1 on: it reads element degree_begin[d]+i*stride instead of (degree_begin[d]+i)*stride.", "quantifier": "all strides, levels and indices", "why_tests_cant": "depends on memory layout", "anchors": ["roughpy_compute/dense/views.hpp:StridedDenseIterator", "roughpy/compute/_src/py_binary_array_fn.hpp"]}
{"id": "C26", "title": "Operands of different depth", "statement": "ft_mul(a,b) is the product truncated at a's depth for all combinations of operand depths. ft_inplace_mul(a,b) multiplies the levels up to min(depth a, depth b) and leaves deeper levels of a unmultiplied. ft_fma(a,b,c) adds the product on words up to min(depth b, depth c) and drops longer ones, and writes out of bounds when the accumulator a is shallower than that. ft_adjoint_left_mul(op,arg) is right when op is at least as deep as arg and drops terms when op is shallower.", "quantifier": "all pairs/triples of depths", "why_tests_cant": "depth combinations times tensor contents", "anchors": ["roughpy/compute/__init__.py:ft_fma, ft_mul, ft_inplace_mul, ft_adjoint_left_mul", "roughpy/compute/_src/call_config.cpp:update_algebra_params"]}
{"id": "C27", "title": "LieBasis(width,depth) is exactly the Hall set", "statement": "The constructed basis contains, once each, exactly the letters and the pairs (a,b) of basis elements with total degree <= depth, a<b, and b a letter or left(b)<=a; elements are grouped by degree in increasing order and within a degree sorted lexicographically by parents; degree_begin gives the group boundaries.", "quantifier": "all widths and depths", "why_tests_cant": "the basis size grows exponentially", "anchors": ["roughpy/compute/_src/lie_basis.c:construct_lie_basis"]}
{"id": "C28", "title": "Basis lookups are exact", "statement": "In a constructed basis, degree(key) is the degree of the key for every key, parents(key) are the stored parents, and find_word(a,b) returns the key whose parents are (a,b) if there is one and reports absence otherwise. For a word larger than every entry of its degree block the binary search inspects one row past the block before comparing.", "quantifier": "all keys and pairs of keys of all bases", "why_tests_cant": "binary-search boundary cases per degree block", "anchors": ["roughpy/compute/_src/lie_basis.c:PyLieBasis_find_word, PyLieBasis_degree, PyLieBasis_get_parents"]}
{"id": "C29", "title": "Basis dimension formula", "statement": "mobius(n) computed by the library is the Moebius function for all n, int_pow is exponentiation, and the per-degree dimension computed from them is Witt's formula; the array allocated with this size is filled exactly by the construction.", "quantifier": "all widths and degrees", "why_tests_cant": "number-theoretic identity for all n", "anchors": ["roughpy/compute/_src/lie_basis.c:mobius_func, int_pow, compute_lie_degree_dim, compute_lie_dim"]}
{"id": "C30", "title": "Cached Lie brackets are correct whatever was computed before", "statement": "For every basis element pair (a,b) of a standard basis, looking up the bracket terminates and returns a combination of basis elements of degree deg a + deg b whose tensor expansion is the commutator of the expansions of a and b (empty beyond the depth); the answer does not depend on which brackets were looked up earlier, in which order, or through bases of which depth; and [b,a] = -[a,b].", "quantifier": "all pairs, all histories of earlier queries with standard bases of the same width and any depths", "why_tests_cant": "histories are unbounded and share mutable state", "anchors": ["roughpy/compute/_src/lie_multiplication_cache.cpp:LieMultiplicationCache_get, compute_bracket, compute_bracket_slow, compute_bracket_half"]}
{"id": "C31", "title": "lie_to_tensor is a Lie homomorphism", "statement": "The l2t matrix column of a letter is that letter, the column of a bracket key is the commutator of its parents' columns, so lie_to_tensor(x) is the expansion of x as a Lie polynomial, is linear, homogeneous in degree, and primitive (its pairing with every nontrivial shuffle is zero).", "quantifier": "all widths, depths, Lie elements", "why_tests_cant": "all keys of all bases", "anchors": ["roughpy/compute/_src/lie_basis.c:get_l2t_matrix, construct_new_l2t, insert_l2t_commutator"]}
{"id": "C32", "title": "tensor_to_lie projects", "statement": "The t2l matrix sends a word to 1/n times its right-normed bracketing; hence lie_to_tensor(tensor_to_lie(lie_to_tensor(x))) = lie_to_tensor(x) for every Lie element x, i.e. tensor_to_lie followed by lie_to_tensor is the identity on embedded Lie elements (Dynkin-Specht-Wever).", "quantifier": "all widths, depths, Lie elements over any commutative Q-algebra", "why_tests_cant": "all elements of all bases", "anchors": ["roughpy/compute/_src/lie_basis.c:get_t2l_matrix, construct_new_t2l, t2l_rbracket"]}
{"id": "C33", "title": "Brackets for user-supplied Hall data", "statement": "The bracket cache is shared by all bases of the same width. For two bases of the same width but different data, the answer to a bracket query depends on which basis was queried first.", "quantifier": "histories of queries through different bases", "why_tests_cant": "depends on process-wide history", "anchors": ["roughpy/compute/_src/lie_multiplication_cache.cpp:get_cache"]}
{"id": "C34", "title": "Sparse matrix builder", "statement": "The incremental builder used for l2t/t2l keeps, under every sequence of frame and value insertions, sorted row indices without duplicates inside each frame, entries equal to the sum of everything inserted at that position, no zero entries in finished frames, and consistent column offsets; growth of the buffers never loses data.", "quantifier": "all sequences of builder operations", "why_tests_cant": "histories of insertions, including cancellation to zero and reallocation", "anchors": ["roughpy/compute/_src/sparse_matrix.c:smh_insert_frame, smh_insert_value_at_index, smh_get_scalar_for_index, remove_zeros_from_frame, smh_resize"]}
{"id": "C35", "title": "Equality and hashes of basis objects agree", "statement": "Whatever TensorBasis and LieBasis objects a program constructs, truncates, hashes and compares, in any order: two of them compare equal exactly if they have the same kind, width and depth, an object always gives the same hash, and objects that compare equal hash equal if both or neither were obtained by truncation. A tensor basis obtained by truncation hashes to 0, so it compares equal to, but hashes differently from, the same basis built directly.", "quantifier": "all widths, depths and histories of constructions, truncations, hashes and comparisons", "why_tests_cant": "the cached hash makes the answer depend on how the object came to be", "anchors": ["roughpy/compute/_src/tensor_basis.c:tensor_basis_hash, tensor_basis_truncate, tensor_basis_richcompare", "roughpy/compute/_src/lie_basis.c:lie_basis_hash, lie_basis_richcompare"]}
{"id": "C36", "title": "Log-signature queries are the ordered product of increments, and obey Chen's identity", "statement": "For a Lie-increment stream queried at a resolution no finer than its own, exp(log_signature) is the ordered product of the exponentials of exactly those increments whose parameter lies in the interval with its ends rounded down to the dyadic grid and cut to the support; for all a<=b<=c, signature(a,c) = signature(a,b)*signature(b,c). The answer is independent of earlier queries made with the same context (the dyadic cache is transparent); it is not independent of earlier queries made with a context of another depth. Of several increments given for the same parameter only the first is kept.", "quantifier": "all streams, intervals, and all histories of queries", "why_tests_cant": "histories of queries share a mutable cache", "anchors": ["streams/src/dyadic_caching_layer.cpp:log_signature", "streams/src/lie_increment_stream.cpp:log_signature_impl"]}
{"id": "C37", "title": "Queries finer than the stream resolution", "statement": "A query at a resolution finer than the stream's is cut into dyadic pieces; a piece finer than the stream's cells contributes the increments of the whole cell if it starts where the cell starts and contains at least one increment, and nothing otherwise. So a query inside a cell returns zero although the interval contains data, the first half of a cell may be answered with the data of the whole cell, Chen's identity fails at such split points, and a query that names no resolution can lose its data.", "quantifier": "all streams, all resolutions finer than the stream's", "why_tests_cant": "depends on relation between query length, resolution and data positions", "anchors": ["streams/src/dyadic_caching_layer.cpp:log_signature(DyadicInterval)", "streams/src/stream.cpp:refine_interval"]}
{"id": "C38", "title": "Piecewise abelian streams", "statement": "For pieces given in order, if no piece sticks out of the right end of the query, the signature of the answer is the ordered product of the pieces' signatures scaled by the covered fraction, and Chen's identity holds for split points that lie inside no piece; the same for queries at a resolution if no grid point lies inside a piece. If a piece sticks out of the right end of the query, its multiplier is the wrong one (computed from the left end) and always too large, so Chen's identity fails for every split point inside a piece. Pieces not given in order can be dropped, and a piece over an empty interval is lost when a query is split at it.", "quantifier": "all piece lists and query intervals", "why_tests_cant": "depends on relative position of query and pieces", "anchors": ["streams/src/piecewise_abelian_stream.cpp:log_signature_impl"]}
{"id": "C39", "title": "Schema: stream dimensions, channels and labels correspond", "statement": "stream_dim_to_channel and channel_variant_to_stream_dim are mutually inverse between the coordinates 0, 1, ... and the (channel, variant) pairs in order, and label_of_stream_dim and label_of_channel_variant give the same label; anything outside is refused with an exception. The Lie key of time, if it is added, is the last one. In every schema built by calls whose channel labels contain no ':' and no NUL, label_to_stream_dim(label_of_stream_dim(d)) = d; with ':' in a label this can fail. No label makes the lookup undefined. finalize(n) fails exactly if 0 < n < width or channels would have to be added to a final schema; otherwise it adds increment channels labelled with their positions and gives width n, unless such a label is already taken: then it stops adding and the schema stays too narrow.", "quantifier": "all schemas (channel lists of all kinds, every history of insertions and changes) and all dimensions, labels and n", "why_tests_cant": "schemas are unbounded lists and labels arbitrary strings", "anchors": ["streams/src/schema.cpp:stream_dim_to_channel, channel_variant_to_stream_dim, label_of_stream_dim, label_to_stream_dim, compare_labels, insert, finalize", "streams/src/channels/categorical_channel.cpp", "streams/src/channels/lead_laggable_channel.cpp"]}
{"id": "C40", "title": "Stream construction helper overloads address the same channel", "statement": "Adding a categorical tick by (channel index, variant index) and by (channel label, variant label) updates the coordinate of that channel variant, and increments by index and by label the first coordinate of the channel. The (index, label) overload updates the coordinate before it, the (label, index) overload ignores the width of earlier channels (it is right exactly if they have as many coordinates as there are channels) and fails on final schemas; add_value by label always updates the first coordinates of the schema. No sequence of calls is undefined behaviour; entries are in order of time. For calls by index, the amounts on lead and lag of a channel up to a time add up to the last value given.", "quantifier": "all schemas, channels, variants, scalar rings and sequences of calls", "why_tests_cant": "depends on schema layout and on the whole history of calls", "anchors": ["streams/src/stream_construction_helper.cpp:add_categorical", "streams/include/roughpy/streams/stream_construction_helper.h:add_value, add_increment"]}
{"id": "C41", "title": "Polynomial arithmetic", "statement": "For polynomials in normal form: poly_add_inplace/poly_sub_inplace give the sum/difference in normal form if every term of the right operand but the last concerns a monomial of the left operand and does not cancel it, and are undefined behaviour otherwise (so adding a polynomial of two terms to zero is); Monomial::operator*= gives the product if all indeterminates of the right factor but its last occur in the left one, and is undefined otherwise; poly_mul_inplace gives the product polynomial with no zero coefficient exactly if all the monomial products are defined; division by a rational throws at zero and otherwise divides every coefficient; equality, zero test, constancy and degree depend on the coefficients as expected.", "quantifier": "all polynomials with rational coefficients in any indeterminates", "why_tests_cant": "iterator invalidation depends on the particular sequence of hits and misses", "anchors": ["platform/src/generics/polynomial_type/polynomial.cpp:poly_add_inplace, poly_sub_inplace, poly_mul_inplace, poly_div_inplace, poly_cmp_equal", "platform/src/generics/polynomial_type/polynomial.h:poly_cmp_is_zero", "platform/src/generics/polynomial_type/monomial.cpp:Monomial::operator*="]}
{"id": "C42", "title": "Monomial ordering", "statement": "operator< on monomials is a strict total order compatible with equality and with degree (so usable as a map key); an exponent read is the stored one; indeterminates recover prefix and index and are ordered by unsigned prefix then index. operator<= holds whenever operator< does but is not its reflexive closure: at equal degrees it compares the first factors only, so 1<=1 is false, and distinct monomials with the same degree and first factor are <= both ways. The order is not compatible with products.", "quantifier": "all monomials, all pairs and triples of them", "why_tests_cant": "order axioms over triples", "anchors": ["platform/src/generics/polynomial_type/monomial.cpp:operator<, operator<=, operator==, Monomial::operator[]", "platform/src/generics/polynomial_type/indeterminate.h:Indeterminate"]}
{"id": "C43", "title": "CacheArray contents and storage", "statement": "For any inline capacity and any history of resizes and accesses below the requested size, no access of a CacheArray is out of bounds and a read gives the value last written since the last resize; size() is the newest request, except that a request within the inline capacity directly after another such one is ignored; destruction leaks one block for every request above the inline capacity followed by one within it, and passes the wrong size to deallocate exactly if the newest request exceeds the inline capacity and is not the greatest since the array last left it.", "quantifier": "all inline capacities and all histories of resizes and accesses", "why_tests_cant": "histories of resizes", "anchors": ["roughpy_compute/common/cache_array.hpp:CacheArray"]}
{"id": "C44", "title": "Packed keys and unpacked words of the vendored algebra", "statement": "index_key(degree,index) returns the stored degree and index when they fit 8 and 56 bits, every 64-bit pattern is the key of its degree and index, and key order is degree-then-index order. For a tensor basis whose words fit a key: lparent/rparent/first_letter of the key of a word are those of the word; key_to_index and index_to_key are mutually inverse if the sizes up to one degree beyond the depth fit 64 bits (they are not at width 9410, depth 4); advance_key is the successor, also across degrees; reverse_key and print_key give the reversed word and the letters. parents(k) differs from (lparent k, rparent k) unless the word starts with the first letter, has two letters or the width is one. Unpacked words: pack/unpack, split/* are inverse; ++ and += add to the index modulo the number of words of that length while width - 1 plus the increment is below 2^16 (at width 2^16 the carry is lost); operator< compares the reversed words, so differs from key order at every degree of two or more; a word built from a vector is reversed with respect to one built from a list.", "quantifier": "all widths, depths, degrees, indices and words in range", "why_tests_cant": "packing arithmetic at the limits", "anchors": ["vendored/libalgebra_lite/index_key.h", "vendored/libalgebra_lite/basis/tensor_basis.cpp", "vendored/libalgebra_lite/tensor_basis.h", "vendored/libalgebra_lite/basis/unpacked_tensor_word.cpp", "vendored/libalgebra_lite/unpacked_tensor_word.h"]}
{"id": "C45", "title": "The two Hall set implementations agree", "statement": "The vendored hall_set has the same elements, in the same order and with the same parents, as the compute module's LieBasis, for every width and depth for which keys do not overflow; its reverse lookup finds exactly the elements, index_of_key and key_of_index are mutually inverse, stepping visits the elements in order, and growing in steps equals building at once. The constructor from an existing set leaves the new one empty, so every query on it is undefined.", "quantifier": "all widths and depths", "why_tests_cant": "two independent constructions must agree at every size", "anchors": ["vendored/libalgebra_lite/basis/hall_set.cpp:hall_set::grow_up", "vendored/libalgebra_lite/hall_set.h", "roughpy/compute/_src/lie_basis.c:construct_lie_basis"]}
{"id": "C46", "title": "Lifetime of cached basis maps", "statement": "A program that never copies a maps object and uses and destroys each only while it exists is free of double deletion and use after deletion exactly if it destroys no object constructed from a width and a depth, and uses none after another was constructed from the same width and depth: constructing maps(width,depth) again destroys the implementation still referenced by the first, and destroying one frees what the global cache owns. Copies share the implementation, so destroying both is undefined.", "quantifier": "all sequences of constructions, uses, copies and destructions, followed by the end of the program", "why_tests_cant": "histories of object lifetimes", "anchors": ["vendored/libalgebra_lite/maps.cpp:maps::maps, maps::~maps", "vendored/libalgebra_lite/maps.h:maps"]}
{"id": "C47", "title": "Hall set size helper", "statement": "For depth at most 51 HallSetSizeHelper(width,depth) can be made and its call with degree k, 1<=k<=50, returns Witt's number (when k times it is below 2^64), the same as the Lie basis of the compute module. At degree 51 and above it reads past its table, also for depth 51; at degree 0 it divides by zero; for every depth of 52 or more the constructor never gets past its sieve and overflows.", "quantifier": "all widths, all depths and degrees of type int", "why_tests_cant": "non-termination and overflow for every depth above a limit cannot be tested", "anchors": ["algebra/src/hall_set_size.cpp:HallSetSizeHelper", "algebra/src/hall_set_size.h:m_mobius"]}
{"id": "C48", "title": "Degree-range defaults of compute calls", "statement": "For every user-supplied depth argument, the effective maximum degree used by a kernel is the basis depth when the argument is negative-one or larger than the depth, and the argument otherwise; a kernel is entered only if min<=max for every argument.", "quantifier": "all integer depth arguments", "why_tests_cant": "sentinel and clamp boundary cases", "anchors": ["roughpy/compute/_src/call_config.cpp:update_algebra_params"]}
{"id": "C49", "title": "Vector kernels", "statement": "vector addition, in-place addition, scalar multiplication and in-place scalar multiplication act coordinatewise on the common prefix of their arguments and extend by zero or copy as documented, in bounds.", "quantifier": "all lengths and contents", "why_tests_cant": "lengths and degree ranges unbounded", "anchors": ["roughpy_compute/dense/basic/vector_addition.hpp", "roughpy_compute/dense/basic/vector_inplace_addition.hpp", "roughpy_compute/dense/basic/vector_scalar_multiply.hpp", "roughpy_compute/dense/basic/vector_inplace_scalar_multiply.hpp"]}
{"id": "C50", "title": "Tensor-valued streams", "statement": "value_at(t) = initial value times the signature over [inf,t); querying a sub-interval gives a stream whose values agree with the original's on that sub-interval, through any number of nested queries, and terminal_value equals value_at of the right end; value_at throws exactly outside the domain. A query that only touches the end of an open-closed domain is accepted but answered with the domain [0,1).", "quantifier": "all streams satisfying Chen's identity, all sub-intervals and parameters", "why_tests_cant": "all nested query histories", "anchors": ["streams/src/tensor_valued_stream.cpp:value_at, query, terminal_value"]}
{"id": "C51", "title": "Campbell-Baker-Hausdorff products", "statement": "The logarithm of any product of exponentials of Lie elements is again a Lie element; cbh of a list of Lie elements returns the Lie element whose exponential is the ordered product of their exponentials, up to the truncation degree, and the two-argument form does the same for a pair.", "quantifier": "all widths and depths within 64-bit range, all lists of Lie elements, all bracket-cache histories", "why_tests_cant": "needs Friedrichs' theorem at every depth", "anchors": ["algebra/src/context.cpp:cbh, cbh_fallback, to_signature"]}
{"id": "C52", "title": "Hashing is FNV-1a", "statement": "Hashing a buffer is FNV-1a as published (64 and 32 bits), can be done piecewise, never gives the same hash for two buffers that differ in one octet, and never hands -1 to Python. Hashing a C string agrees with hashing its bytes if they are ASCII, and disagrees if exactly one of them is not.", "quantifier": "all buffers, all initial states", "why_tests_cant": "hash collisions cannot be searched for by tests", "anchors": ["core/src/fnv1a_hash.c:fnv1a_hash_bytes64, fnv1a_hash_string64", "pycore/include/roughpy/pycore/fnv1a_hash.h:fnv1a_hash_finalize"]}
{"id": "C53", "title": "Default sizes of a context", "statement": "A context created without given sizes, width w, depth 1..50: tensor_size(d) is the number of words with at most d letters modulo 2^64, degrees outside 0..depth stand for the depth; lie_size(d) is the product (not the sum) of the numbers of basis elements of degrees 1..d, so it differs from the dimension already at degree 2 for every width. Depths 0, -1 and those above 50 are undefined behaviour, depths below -1 throw.", "quantifier": "all widths and depths of type int, all degrees", "why_tests_cant": "holds for every width; the failing depths are unbounded", "anchors": ["algebra/src/context.cpp:ContextBase::ContextBase, ContextBase::lie_size, ContextBase::tensor_size, get_base_context"]}
{"id": "C54", "title": "Extending a map from letters to Hall elements", "statement": "Given a function on letters and a binary operation, the extension evaluated at a Hall element is the function folded over the element's bracketing, whatever elements were evaluated before and left values in the cache.", "quantifier": "all widths and depths for which keys do not overflow, all functions and operations, all call histories", "why_tests_cant": "depends on the history of a cache and on unbounded nesting", "anchors": ["vendored/libalgebra_lite/hall_set.h:hall_extension::operator()"]}
{"id": "C55", "title": "Adjoint of shuffle multiplication", "statement": "The adjoint shuffle kernel adds, to every word v of the output, the sum over all words u of the argument and all ways to split u into two complementary subsequences the second of which is v, of argument(u) times operator(first subsequence); it writes nothing else. Started on zeros it satisfies <op shuffle x, arg> = <x, result> for every x.", "quantifier": "all widths up to 32768, all depths below 64, all coefficient rings and contents", "why_tests_cant": "an algebraic identity over all words", "anchors": ["roughpy_compute/dense/basic/shuffle_tensor_adjoint_mul.hpp:st_adj_mul", "roughpy_compute/common/basis.hpp:pack_masked_index"]}
{"id": "C56", "title": "Programs over free tensor objects", "statement": "Take any sequence of calls on free tensor objects of one context (construction dense or sparse from values with or without keys, copies, unary minus, +, -, *, scalar multiplication and division, their in-place and fused forms, exp, log, fmexp). It runs without error or undefined behaviour, and afterwards iteration, subscripts, is_zero and == answer as the truncated tensor algebra says, for every object. Dense or sparse storage makes no difference to what is seen and is kept. (Left out: the calls of C58.)", "quantifier": "all sequences of calls on any number of objects, aliased or not, all widths and depths from 1 that fit packed keys, all scalars", "why_tests_cant": "all histories of mixed storages, sizes and aliasing; all widths and depths", "anchors": ["algebra/include/roughpy/algebra/algebra_base_impl.h:AlgebraBase::add, sub, mul, smul, sdiv, add_inplace, add_scal_mul, add_mul, mul_smul, operator==", "algebra/include/roughpy/algebra/implementors/algebra_impl.h:AlgebraImplementation, convert_argument", "algebra/src/lite_context.h:LiteContext::construct_impl, convert_impl", "vendored/libalgebra_lite/free_tensor.h:free_tensor, free_tensor_multiplier::fma_traditional", "vendored/libalgebra_lite/dense_vector.h:dense_vector", "vendored/libalgebra_lite/sparse_vector.h:sparse_vector"]}
{"id": "C57", "title": "Algebra laws for free tensor objects", "statement": "After any program, with operands of any storage, == confirms: (x*y)*z = x*(y*z); x*(y+z) = x*y + x*z; log(exp(x)) = x if x has no constant term; exp(log(x)) = x if it has constant term 1; x.fmexp(y) = x*exp(y).", "quantifier": "all programs as in C56, all operands", "why_tests_cant": "identities over all contents, sizes and storages", "anchors": ["algebra/include/roughpy/algebra/implementors/free_tensor_impl.h:exp, log, fmexp", "vendored/libalgebra_lite/free_tensor.h:exp, log, fmexp_inplace"]}
{"id": "C58", "title": "Where free tensor objects leave the algebra", "statement": "Exactly described: x*null gives x; exp(null) is null; null on the left of any binary operation is undefined behaviour; x -= x on a sparse tensor other than zero is undefined behaviour; [] past the end of a dense tensor is undefined behaviour; Python's x / Scalar multiplies; a dense tensor cleared by an in-place product keeps a stale degree and later products read past the end; depth 0. Division by zero and operands of two contexts are reported as errors.", "quantifier": "all programs reaching these calls", "why_tests_cant": "undefined behaviour need not show in a test", "anchors": ["algebra/include/roughpy/algebra/algebra_base_impl.h:AlgebraBase::mul, add_inplace, operator==", "roughpy/src/algebra/setup_algebra_type.h:__truediv__", "vendored/libalgebra_lite/sparse_vector.h:inplace_binary_op", "vendored/libalgebra_lite/dense_vector.h:clear, operator[]"]}
{"id": "C59", "title": "The antipode of a free tensor is the antipode of the tensor Hopf algebra", "statement": "antipode() of a free tensor reverses words and changes the sign of those of odd length, for dense storage (tiled and untiled levels) and sparse storage alike; so antipode twice gives the tensor back, antipode(x*y) = antipode(y)*antipode(x), antipode(exp(x)) = exp(antipode(x)), and the antipode of a group-like tensor is its inverse on both sides. A dense tensor without data (a fresh zero) is undefined behaviour.", "quantifier": "all programs over free tensor objects, widths, depths, data and storage", "why_tests_cant": "the tiled copy permutes blocks by reversed indices; whether every coefficient lands in the right place depends on width, depth and degree together", "anchors": ["algebra/src/free_tensor.cpp:FreeTensor::antipode", "vendored/libalgebra_lite/free_tensor.h:antipode, antipode_helper", "algebra/include/roughpy/algebra/implementors/free_tensor_impl.h:antipode"]}
{"id": "C60", "title": "Lie elements form a Lie algebra embedded in tensors", "statement": "The library's brackets of basis keys, extended bilinearly to coordinate vectors, are alternating, antisymmetric and satisfy the Jacobi identity; every non-letter key is the bracket of its parents; lie_to_tensor turns brackets into commutators of tensors and sends different Lie elements to different tensors; tensor_to_lie after lie_to_tensor returns exactly the same coordinates.", "quantifier": "all widths and depths that fit, all coordinate vectors over any commutative ring (with 1/d for tensor_to_lie), all histories of the bracket cache", "why_tests_cant": "the identities need the basis to be linearly independent and spanning in every degree, for all coordinates", "anchors": ["roughpy/compute/_src/lie_basis.c:construct_lie_basis, construct_new_l2t, construct_new_t2l", "roughpy/compute/_src/lie_multiplication_cache.cpp:LieMultiplicationCache_get", "roughpy/compute/__init__.py:lie_to_tensor, tensor_to_lie"]}
{"id": "C61", "title": "The Campbell-Baker-Hausdorff product is a group law", "statement": "cbh of two Lie elements is the only Lie element whose signature is the product of their signatures; it depends on nothing but the coordinates (not on earlier calls); it is associative; zero is its unit; cbh(x, y) = 0 exactly when y = -x; elements with zero bracket, in particular multiples of one element, are added; cbh of a list may be split anywhere into two lists; the projected logarithm of the signature of x is x, so signatures determine Lie elements.", "quantifier": "all Lie elements over exact scalars, all widths and depths that fit, all histories", "why_tests_cant": "identities over all coordinates, depths and cache states", "anchors": ["algebra/src/context.cpp:context::cbh, cbh_fallback, to_signature"]}
{"id": "C62", "title": "Tick streams: the log-signature is the product of the ticks", "statement": "A stream made from ticks (time, Lie element), in any order and several to a cell of the resolution, is constructed; a query no finer than the resolution returns the log-signature whose exponential is the ordered product of the exponentials of the ticks between the ends rounded down to the query's grid, cut down to the support; finer queries give the ticks of the whole cell to the piece that starts where the cell does and nothing to the others; adjacent queries multiply (Chen); empty(interval) is true exactly if no tick lies between the rounded ends. Ticks of one cell given out of order are multiplied in the order given (refuted), queries without resolution can put ticks on the wrong side (refuted), and a stream with a tick in the cell at 0 and one before 0 is never constructed (refuted).", "quantifier": "all lists of ticks, resolutions, supports, query intervals and query resolutions within 32-bit dyadic range, all contexts whose cbh multiplies signatures", "why_tests_cant": "the tree of partial log-signatures filled by the constructor must have an entry for every smallest dyadic interval any later query computes; tests try a few streams", "anchors": ["streams/src/tick_stream.cpp:TickStream::TickStream, recursive_logsig, smallest_dyadic_containing_all_events, smallest_dyadic_containing_all_negative_events, smallest_dyadic_containing_all_positive_events, log_signature_impl, empty", "streams/src/stream.cpp:Stream::log_signature", "roughpy/src/streams/tick_stream.cpp:construct"]}
{"id": "C63", "title": "Dynamically constructed streams: one path behind the answers", "statement": "A function or Brownian stream, asked any sequence of queries on one side of 0, answers them all. If the function gives log-signatures of one path, every answer has the signature of that path between the ends rounded to the query's grid, whatever was asked before. For any source that splits increments into two whose product they are (Brownian streams at depth 1), if the first query is a dyadic interval and the others lie in it, the answers are products of the increments of one path: a query asked again gets the same answer and adjacent queries multiply (Chen). The first query of one dyadic interval gets the source's own increment. The tree saved and loaded again is the same tree. Refuted as counterexamples: queries on both sides of 0 (the second never gets an answer); for functions of values at depth 2: repeated queries, independence of what was asked before, refinement to the resolution asked for; Brownian streams at depth 2, or whose first query is not the largest.", "quantifier": "all sequences of queries, supports, resolutions within 32-bit dyadic range, all sources of increments and states of the random generator, all contexts whose cbh multiplies signatures", "why_tests_cant": "answers depend on the whole history of queries through a mutable tree", "anchors": ["streams/src/dynamically_constructed_stream.cpp:log_signature, compute_child_lie_increments, expand_root_until_contains, refine_accuracy, insert_children_and_refine, update_parent_accuracy, insert_node, store_cache, load_cache", "streams/src/function_stream.cpp:log_signature_impl", "streams/src/brownian_stream.cpp:make_new_root_increment, make_neighbour_root_increment, compute_child_lie_increments", "streams/src/stream.cpp:Stream::log_signature"]}
{"id": "C64", "title": "Shuffle and half-shuffle products of tensor objects", "statement": "The product of ShuffleTensor objects, and the functions shuffle_multiply and half_shuffle_multiply, give for every pair of operands the truncated shuffle product (a word's coefficient is the sum over all ways to deal its letters to the two factors) or the half with the first letter from the left factor. Dense and sparse operands, products computed before (the process keeps them), and operands deeper than the left one make no difference. The product is commutative, associative and distributive with unit 1, the two halves add up to it, and on group-like tensors such as signatures a product of functionals evaluates to the product of their values. Not covered, and shown to go wrong: 34 or more letters, right operands of smaller depth or other width, sums with a dense zero result.", "quantifier": "all sequences of constructions, sums, products and function calls on any number of objects in any number of contexts, all coefficients in any commutative rational algebra with decidable equality", "why_tests_cant": "the multiplicities come from a recursion with a process-wide cache shared by all calls of a width, and the answer depends on operand storages and on every earlier call; tests see a few products", "anchors": ["vendored/libalgebra_lite/include/libalgebra_lite/shuffle_tensor.h: half_shuffle_tensor_multiplier, shuffle_tensor_multiplier", "vendored/libalgebra_lite half_shuffle_multiplier.cpp: operator(), shuffle, key_prod_impl", "vendored/libalgebra_lite shuffle_multiplier.cpp", "vendored/libalgebra_lite algebra.h: base_multiplier::fma, multiply", "roughpy/src/algebra/free_multiply_funcs.cpp: shuffle_multiply, half_shuffle_multiply", "algebra/src/lite_context.h: shuffle_multiply, half_shuffle_multiply"]}
{"id": "C65", "title": "Lie objects, their brackets and conversions", "statement": "Lie objects behave as elements of the free Lie algebra truncated at the depth of their context: the product is the bracket, as == sees it antisymmetric, bilinear and satisfying the Jacobi identity; converting to a tensor gives the element as a combination of iterated commutators (the bracket becomes the commutator), converting back gives the element again; a context of the same width and another depth truncates. Dense and sparse storage, several contexts and whatever was computed and cached before make no difference, and iteration and subscripts give the coordinates in the Hall basis. Conversions between different widths raise an exception. With the 32-bit coefficients the caches really have, a run either overflows or gives the same. Not covered, and shown to go wrong: a sparse Lie object converted to a context of smaller depth.", "quantifier": "all sequences of constructions, linear operations, brackets, products, exponentials, logarithms and conversions on any number of objects in any number of contexts, all coefficients in any commutative rational algebra with decidable equality", "why_tests_cant": "structure constants come from a recursive rewriting with a cache shared by all contexts of a width, expansions and projections from caches kept per context; the answer could depend on storages, contexts and every earlier call, and Jacobi must hold for all triples", "anchors": ["vendored/libalgebra_lite lie_multiplier.cpp: key_prod_impl, operator()", "vendored/libalgebra_lite maps.cpp: expand, rbracketing", "vendored/libalgebra_lite maps.h: lie_to_tensor, tensor_to_lie", "algebra/src/lite_context.h: lie_to_tensor, tensor_to_lie, convert", "algebra/include/roughpy/algebra/algebra_impl.h: operators, equals"]}
{"id": "C66", "title": "Signatures, log signatures and Campbell-Baker-Hausdorff products of objects", "statement": "A context's signature of the rows of data of a stream is the truncated product of their exponentials, and its log signature the logarithm of this as a Lie element, in whichever storage is asked for. The signature over joined data is the product of the signatures (Chen), the log signature over joined data the Campbell-Baker-Hausdorff product of the log signatures. The two ways to ask for the Campbell-Baker-Hausdorff product agree, it is associative, has the negative as inverse and zero as unit, with operands from this and from other contexts of the same width.", "quantifier": "all rows (dense, or keys with values), all splits, all programs of C65 with signatures, log signatures and Campbell-Baker-Hausdorff products before", "why_tests_cant": "identities between infinite families of Lie polynomials through exponential, logarithm and projection in two storages; tests compare a few numbers with tolerance", "anchors": ["algebra/src/lite_context.h: compute_signature, log_signature", "algebra/src/context.cpp: Context::cbh (both), cbh_fallback", "vendored/libalgebra_lite free_tensor.h: fmexp, exp, log", "vendored/libalgebra_lite maps.h: lie_to_tensor, tensor_to_lie"]}
{"id": "C67", "title": "Derivatives of signatures", "statement": "The derivative of a signature over one interval in the direction of a perturbation is the derivative of the truncated exponential (the coefficient of epsilon in exp(x + epsilon y)), additive in the perturbation, with operands of this or another context. Over several intervals the result is what the recursion r exp(x) + dexp gives, and this is not the derivative of the product: shown by example. Lie elements of the same context stored otherwise than the result is asked for are undefined behaviour.", "quantifier": "all programs of C65 and C66 before, all increments and perturbations, all lists of intervals, both storages", "why_tests_cant": "the formula is a truncated series of iterated commutators that must sum to a derivative for every increment and depth; tests check single examples", "anchors": ["algebra/src/lite_context.h: sig_derivative, sig_derivative_impl, ad_x_n, derive_series, sig_derivative_single, lie_to_tensor_impl"]}
{"id": "C68", "title": "Batched calls of roughpy.compute", "statement": "Every function of roughpy.compute, given arrays with any number of batch dimensions, computes for every batch index exactly what it computes for the single tensors (or Lie elements) with that index, and writes nothing else: for any batch strides (reversed, broadcast inputs, gaps) as long as the elements of one tensor are consecutive and the output pieces do not overlap. Stacks in C order therefore give the stack of products, shuffle products, antipodes, adjoints, exponentials, logarithms, fused exponentials and conversions, of the same batch shape. Arrays of different batch shapes are refused. Data whose last dimension is not contiguous (Fortran order) gives wrong results, and the length of the last dimension is not checked: shown by example.", "quantifier": "all batch shapes (also empty), strides, offsets, contents and degree bounds, all widths and depths, any scalar ring", "why_tests_cant": "the odometer over batch indices must visit every index once for every shape, and pieces must not leak into each other; tests try one or two shapes", "anchors": ["roughpy/compute/_src/py_binary_array_fn.hpp: outer_loop_binary, binary_function_outer", "roughpy/compute/_src/py_ternary_array_fn.hpp: outer_loop_ternary, ternary_function_outer", "roughpy/compute/_src/check_dims.hpp: check_dims", "roughpy/compute/_src/dense_basic.cpp: py_dense_ft_fma, py_dense_ft_inplace_mul, py_dense_antipode, py_dense_ft_adj_lmul, py_dense_st_fma, py_dense_lie_to_tensor, py_dense_tensor_to_lie", "roughpy/compute/_src/dense_intermediate.cpp", "roughpy/compute/__init__.py"]}
{"id": "C69", "title": "Python data becomes the coefficients and increments it says", "statement": "Lie(data), FreeTensor(data), ShuffleTensor(data) and LieIncrementStream.from_increments(data) accept exactly the numbers, (key, number) pairs, sequences of numbers or of pairs, dictionaries, Lie elements and, for streams, sequences of these rows, and take from them exactly the values (and for elements the keys) in order, each converted to the scalar type; anything else without arrays raises an exception, and nothing is undefined. One-dimensional arrays with any stride, two-dimensional ones that are contiguous, transposed or stepped in the last dimension, lists of one-dimensional arrays and contiguous buffers give element (i,j) at place j of row i (of integers and floats; unsigned ones below half of their range). Shown to go wrong: unsigned integers (read as signed ones), arrays of bool or complex numbers (the process ends), some columns of a wider matrix (overlapping rows), every eighth double, stride zero, arrays without dimensions, buffers of another type (out of bounds) or in Fortran order, keys of stream rows (lost), lists of pairs meant as rows, lists whose first number has an unregistered type.", "quantifier": "all Python values built from numbers, keys, strings, None, tuples, lists, dictionaries, Lie elements and arrays to any depth and size; all shapes, strides and memories; all scalar types and conversions", "why_tests_cant": "the reader decides recursively what nested data means and the strided copy computes offsets from shape and strides; tests see a handful of shapes", "anchors": ["roughpy/src/args/parse_data_argument.cpp: ConversionManager, parse_data_argument, fill_ks_stream", "roughpy/src/args/strided_copy.cpp: stride_copy", "roughpy/src/args/strided_copy.h: is_C_contiguous", "roughpy/src/streams/lie_increment_stream.cpp: lie_increment_stream_from_increments", "roughpy/src/algebra/lie.cpp: construct_lie", "roughpy/src/algebra/free_tensor.cpp: construct_free_tensor"]}
{"id": "C70", "title": "The scalar type chosen for data is the common type of its rows", "statement": "When no scalar type is given, the type chosen for data is the common type of the types of its rows: polynomial before rational before double before float, integers as double; the order of the rows does not matter. The result is the one obtained when the chosen type is asked for. A row's type is that of its first entry only: [0.5, Fraction] and [Fraction, 0.5] get different types (refuted).", "quantifier": "all data of C69 whose entries have integer, float, double, rational or polynomial types; the last part for all data, arrays included", "why_tests_cant": "promotion is folded over the rows in order with asymmetric rules; that every order agrees is a claim about all sequences of types", "anchors": ["roughpy/src/args/parse_data_argument.cpp: compute_scalar_type, compute_type_info", "scalars/src/scalar/type_promotion.cpp: compute_type_promotion", "scalars/src/scalar_type.cpp: ScalarType::for_info"]}
{"id": "C71", "title": "A stream built from rows answers for all of its rows", "statement": "LieIncrementStream.from_increments(data, indices=..., ...) puts row i at parameter i without indices, else at element i of the indices or at the running sum of the named column, keeps the rows in the order of their indices (of rows with equal indices the first) and with include_time sets the last letter to the time since the row before. The call succeeds exactly when a context or a depth and some letters are given, there are as many usable indices as rows and, with time, two letters; else it raises an exception. The support runs from the least index to one cell after the greatest, so the log-signature of the whole stream at its own resolution is the product of all increments; the same without naming a resolution for streams without indices (up to 2^26 rows), and with indices if the least one is a multiple of the cell length or cells are small. Shown to go wrong: buffers of unsigned indices (200 of 8 bits is read as -56), log_signature() of rows at 100, 150, 200 or of one row at 0.45 misses rows; the default resolution looks at the least index only, so close rows are not separated; a given resolution is ignored without indices; indices in a buffer with strides are misread; include_time overwrites the last column of rows as wide as the context.", "quantifier": "all numbers of rows, all rows, index arguments of every kind, settings, histories of queries before; any scalars, context and Lie elements", "why_tests_cant": "which rows a default query sees depends on index, resolution, support and the dyadic dissection together; tests use integer indices from 0", "anchors": ["roughpy/src/streams/lie_increment_stream.cpp: lie_increment_stream_from_increments, buffer_to_indices", "roughpy/src/args/kwargs_to_path_metadata.cpp: param_to_resolution", "roughpy/src/streams/schema_finalization.cpp: finalize_schema", "streams/src/lie_increment_stream.cpp: LieIncrementStream (constructor from a KeyScalarStream)", "streams/src/stream.cpp: Stream::log_signature"]}
{"id": "C72", "title": "Scalars and scalar arrays remember their type", "statement": "A scalar or scalar array made with a type object answers with that type and with how its value is stored, for every type object and every storage kind; one made with a description of a signed integer, float, bfloat, bool or polynomial type answers with that description. Changing the storage kind leaves the type alone; two of them count as having the same type word only for equal types stored the same way. Shown to go wrong: a description of an unsigned, complex, opaque or rational type is read back as another type (unsigned as signed, rational as no type at all).", "quantifier": "all addresses of type objects, all type descriptions (code, bytes, alignment, lanes), all storage kinds", "why_tests_cant": "the type, its description and the storage kind share one machine word; that no combination overwrites another is a claim about all words", "anchors": ["scalars/include/roughpy/scalars/packed_scalar_type_ptr.h: PackedScalarTypePointer", "scalars/src/scalar_array.cpp: ScalarArray::ScalarArray, type_info", "scalars/src/scalar.cpp: Scalar::type_info"]}
{"id": "C73", "title": "Arithmetic of scalars of different types and storage", "statement": "For scalars that hold their value, own memory or refer to a coefficient of an element, of any of the types int32, int64, float, double, rational, polynomial: a+b, a-b and a*b have the value of the operation, in the common type of both unless one of them is 0, hold it themselves and change nothing else; a+=b and so on put the value where a is, so that a scalar referring to a coefficient changes just that coefficient, keeps its type and still refers to it; copies share no memory; constant references are never changed; a==b compares values whatever the types; a/=b of one type gives the quotient. Whole programs of such operations give every scalar and every coefficient the value of an ideal program on values and references. Shown to go wrong: -a is 0 for every a; adding a polynomial to a double coefficient silently adds 0; dividing a coefficient by a number of another type leaves it as it is; -0.0 == 0.0 is false; x + 0.0 keeps the type of the integer x.", "quantifier": "all scalars, types, storage kinds, values in any ring with sound conversions, and all sequences of operations on any number of scalars and coefficients", "why_tests_cant": "type, storage kind and aliasing combine; a test sees one combination, and sharing of memory shows only after further operations", "anchors": ["scalars/include/roughpy/scalars/scalar.h: Scalar", "scalars/src/scalar.cpp: Scalar::Scalar, operator=, change_type, ~Scalar", "scalars/src/scalar/arithmetic.cpp: operator+=, operator-=, operator*=, operator/=, operator-", "scalars/src/scalar/comparison.cpp: operator==", "scalars/src/scalar/type_promotion.cpp: compute_type_promotion, compute_dest_type"]}
{"id": "C74", "title": "Scalars use memory safely", "statement": "In every program that copies, assigns, adds, subtracts, multiplies, divides, negates and drops scalars there is no undefined behaviour, no memory is freed twice or used after it was freed, no two scalars own the same memory, coefficients referred to keep their type, and when all scalars are dropped all memory they used has been freed; provided scalars without a type are not used on the left of an operation or as the source of an assignment and division needs no change of type. Shown to go wrong: the negative of 0 has no type, so that adding to it reads a null pointer; dividing an integer by a double writes memory of one type as another.", "quantifier": "all programs of these operations of any length, all types, storage kinds and values, any behaviour of conversions and arithmetic on values", "why_tests_cant": "double frees and leaks depend on the history of copies, references and type changes; no finite set of histories covers them", "anchors": ["scalars/src/scalar.cpp: Scalar::Scalar, operator=, ~Scalar, allocate_data", "scalars/include/roughpy/scalars/scalar.h: change_type", "scalars/src/scalar/arithmetic.cpp"]}
{"id": "C75", "title": "Simplified streams", "statement": "Simplifying a stream along a partition gives a stream with one piece per piece of the partition, in order, each holding what the original answers for that piece at the given resolution, and leaves the answers of the original as they were, whatever was asked before. If the pieces are dyadic intervals no finer than the resolution and the cells of the original, then every query of the simplified stream whose rounded ends lie strictly inside no piece gives the signature of all increments between, with or without a named resolution, hence the same answer as the original between points of the partition. Refuted: a piece that is not a dyadic interval is counted more than once by the query of just this piece; simplifying with a context of lower depth changes what the original answers afterwards.", "quantifier": "all streams, partitions, resolutions, supports, queries and histories of earlier queries", "why_tests_cant": "the answer combines the partition, two dyadic dissections and the state of the cache of the original; tests fix one of each", "anchors": ["streams/src/stream.cpp: Stream::simplify", "streams/src/piecewise_abelian_stream.cpp: PiecewiseAbelianStream::log_signature_impl", "intervals/src/partition.cpp: Partition", "streams/src/stream.cpp: Stream::log_signature"]}
{"id": "C76", "title": "Arguments of signature and log_signature", "statement": "Each call of signature or log_signature of a stream from Python stands for one interval, one resolution and one context, given by a fixed reading of its arguments: no interval or None for the whole support, two numbers for their clopen interval, an interval and then perhaps a resolution, one int alone for a resolution; resolutions as ints or as floats standing for cells of their size; a context, or the stream's own, or one of the given depth and scalar type. The call answers with the product of the increments of that interval at that resolution in that context, whatever was asked before, and no other call is answered. Reading the arguments can end the process only for a dyadic interval outside the 32-bit range or, without a context, for a negative depth, an unknown name of a scalar type or a type without contexts. Refuted: naming a scalar type without a depth asks at depth 0; scalar types given by name are refused or crash; after None a second argument is ignored; a lone int replaces the resolution given by name; resolutions are reduced modulo 2^32.", "quantifier": "all streams, positional and keyword arguments of any kind and number, and histories of earlier queries", "why_tests_cant": "the combinations of positional, keyword and omitted arguments and of their types are unbounded; tests call the usual ones", "anchors": ["roughpy/src/streams/signature_arguments.cpp: parse_sig_args, resolution_converter", "roughpy/src/streams/stream.cpp: signature, log_signature", "streams/include/roughpy/streams/stream.h: Stream::log_signature"]}
{"id": "C77", "title": "Arguments of signature_derivative, simplify and restrict", "statement": "Each call of signature_derivative stands for a list of intervals with directions, a resolution and a context, given by a fixed reading of its arguments, and answers with the context's derivative at the stream's own answers for the intervals; each call of simplify stands for a partition, a resolution and a context of the width and scalar type of the stream, and gives the simplified stream of C75; restrict gives the stream restricted to the interval. Calls of any other form are not answered. Refuted: a tuple of exactly two directions is refused though a list of them is accepted; restrict with an object that is no interval ends the process.", "quantifier": "all streams, positional and keyword arguments of any kind and number, lists of directions of any length, and histories of earlier queries", "why_tests_cant": "the combinations of arguments and the nesting of lists and tuples are unbounded; tests call the usual ones", "anchors": ["roughpy/src/streams/stream.cpp: sig_deriv, simplify_stream, restrict", "streams/src/stream.cpp: Stream::signature_derivative, Stream::simplify, Stream::restrict"]}
{"id": "C78", "title": "Arrays of scalars", "statement": "A program that makes, borrows, slices, copies, moves, assigns, reads, writes and drops arrays of scalars sees exactly the elements the operations stand for: owned copies, slices and borrowed arrays share elements, assigned arrays have their own, elements out of range and writes to constant arrays are errors, and no operation reads or frees memory wrongly, as long as elements are read only while their memory is the caller's or owned by some array. At each moment memory taken is held exactly while some array owns it; once all arrays are gone all of it is freed; memory lent for reading only is never written. Refuted: copies are independent of the original; assigning an array of nothing empties the target; assigning from a borrowed array copies it (it throws, writes over the buffer, or leaves an unreadable array whose memory is never freed); an element of an array of nothing is an error; an array can be made from type information and a size.", "quantifier": "all programs of any length over any number of arrays, sizes, element types and elements", "why_tests_cant": "sharing, lifetime and reference counts depend on the whole history of the program; tests run short fixed programs", "anchors": ["scalars/src/scalar_array.cpp: ScalarArray::ScalarArray, ~ScalarArray, operator=, operator[], borrow, borrow_mut", "scalars/include/roughpy/scalars/scalar_array.h: ScalarArray", "platform/include/roughpy/platform/devices/device_object_base.h: inc_ref, dec_ref"]}
{"id": "C79", "title": "Tensor keys of Python", "statement": "TensorKey makes a key from letters (given one by one or as a sequence, with the width and depth given or taken from them) exactly when all are from 1 to the width and there are at most depth of them, and from an index exactly when it is that of such a word; the key's letters are those given. Every key has one word and every word one key, and indices order words by length and then letter by letter. Keys are equal exactly if their widths and words are; the degree is the number of letters; reverse gives the letters backwards; splitting off the last letter, none, or at least depth letters gives the two parts; iterating over a basis gives each word once, in order. Refuted: the product of keys is the concatenation (it is the second word followed by the first); a product stays within the depth; splitting off n letters gives them (it does exactly if they are among the first width^n words); letter 0 is refused; keys by index work for width 1; equal keys behave alike.", "quantifier": "all widths, depths whose words can be numbered in 64 bits, words, indices and keys", "why_tests_cant": "numbering of words and arithmetic modulo 2^64 must agree for every width, depth and word; tests try a few short words", "anchors": ["roughpy/src/algebra/tensor_key.cpp: construct_key, split_n, to_letters, reverse, operator*, equals, degree", "roughpy/src/algebra/tensor_key.h: power", "roughpy/src/algebra/tensor_key_iterator.cpp: PyTensorKeyIterator"]}
{"id": "C80", "title": "Lie keys of Python", "statement": "LieKey accepts exactly a letter of at most the width or nested two-element lists of letters, is written as the bracket given, and everything else raises an error. Each key of a basis is written as its bracket, keys and brackets of a basis correspond one to one, and iterating over a basis gives every key from the start to the end with its bracket; this applies to every Hall set. Indexing a Lie element by the key of a letter reads that letter's coefficient. Refuted: indexing by the key of a bracket reads that bracket's coefficient (it never does; for [a,...] it reads that of a); brackets outside the basis, letters beyond the width in lists and letter 0 are refused.", "quantifier": "all bases whose parents come first, all keys, all nested lists, all brackets, all ranges", "why_tests_cant": "offsets in the array depend on the sizes of all subtrees; tests try a few small brackets", "anchors": ["roughpy/src/algebra/lie_key.cpp: make_lie_key, ToLieKeyHelper, parse_key, print_walker, to_internal_key_recurse, operator key_type", "roughpy/src/algebra/lie_key_iterator.cpp: PyLieKeyIterator", "roughpy/src/algebra/lie.cpp: __getitem__", "algebra/src/libalgebra_lite_internal/lie_basis_info.h: child, parents, letter"]}
{"id": "C81", "title": "Schemas described by Python data", "statement": "Data given for a schema are accepted exactly in these forms: a dictionary from labels to dictionaries with a type (and options) or to pairs of a type and options, and a sequence of dictionaries with a label and a type or of triples of label, type and options; types are ChannelType objects or the four names in any case; lead_lag of value channels is a truth value, categories of categorical channels are names. If no label is empty or taken by an earlier one (the same, or the part before a colon) the schema has exactly the channels described, in order, with these options, categories once each. Everything else raises an error. Refuted: options may be left out (a type alone is refused in every short form); each item makes a channel (one with a taken label makes none, whatever its type, and its options change the earlier channel).", "quantifier": "all Python data, of any nesting and size, all labels, options and categories", "why_tests_cant": "the forms nest and the labels interact with all earlier ones; tests parse a few literals", "anchors": ["roughpy/src/args/parse_schema.cpp: parse_schema, parse_into_schema, handle_dict_schema, handle_seq_schema, handle_dict_item, handle_seq_item, py_to_channel_type, string_to_channel_type", "streams/src/schema.cpp: StreamSchema::insert, StreamSchema::find"]}
{"id": "C82", "title": "Metadata of stream constructors", "statement": "The keyword arguments of the stream constructors give the schema they ask for: the channel types of a list (labelled by number) or dictionary, otherwise the given schema made final, otherwise an empty one; include_time adds one coordinate after all others. Width, depth and scalar type are those of the context if there is one, otherwise those given; with a final schema and no width given the width is the schema's. The arguments are accepted exactly if, with a final schema, no time is asked for and a width given is that of the schema; otherwise there is an error. Refuted: the time can be asked for together with a schema; the context and the metadata agree about the width (a context of any other width than the schema's is accepted); channel types beside a schema are ignored, as the warning says (the schema is replaced).", "quantifier": "all combinations of the arguments, all schemas, lists and dictionaries of types of any size, all contexts", "why_tests_cant": "the arguments combine freely and override each other; tests pass a few combinations", "anchors": ["roughpy/src/args/kwargs_to_path_metadata.cpp: kwargs_to_metadata", "roughpy/src/args/parse_algebra_configuration.cpp: parse_algebra_configuration", "streams/src/schema.cpp: StreamSchema::finalize, StreamSchema::width, time_channel_to_lie_key"]}
{"id": "C83", "title": "Tick streams from Python ticks", "statement": "Each call that adds an increment, a value or a category makes a tick with its label, type and data, at the seconds between its timestamp and that of the first call (floats or datetimes, not mixed). The ticks are taken in the order of time, ticks of one time in the order of the calls. Each gives one row at its time: an increment its number at the dimension of its label; a value the difference to the last value of that dimension (of lead and lag for lead-lag channels); a category one; the time coordinate, if asked for, the time since the tick before, starting from 0. So the changes of a dimension add up to its last value plus all increments and categories. With no schema given there is one channel for each label, in the order of first use and with the type of the first tick, categories in the order of use; width and depth are those of the schema and 2, or as asked; a given schema is not changed. With channel labels there is either a stream or an error, and readable calls make a stream. Refuted: there is never a read out of range (a value labelled by the lag of the last channel; a value for a last categorical channel without categories); a category moves its own coordinate (all move the first one); the times of floats are kept (the first tick is at 0). If a width is asked for without a schema, channels of the default type named by their positions follow those of the ticks until the width is reached, as long as those names are free; the schema then has that width, and a narrower width than that of the ticks is refused (with time, one more is allowed).", "quantifier": "all sequences of calls of any length, all timestamps, labels, data and keyword arguments, all algebras with coordinates", "why_tests_cant": "order, precedence at equal times, last values and the schema depend on the whole history of calls; tests add a few ticks", "anchors": ["roughpy/src/streams/r_py_tick_construction_helper.cpp: add_tick, add_increment, add_value, add_categorical, ticks", "roughpy/src/args/convert_timestamp.cpp: convert_delta_from_datetimes", "roughpy/src/streams/schema_finalization.cpp: finalize_schema, last_minute_setup", "roughpy/src/streams/tick_stream.cpp: construct"]}
{"id": "C84", "title": "Data for tick streams", "statement": "The standard parser reads data exactly by these rules, where timestamp, label, type and data are found in this order: a dictionary with all fields still missing is one tick (other keys are ignored); other dictionaries give the next field by their keys; lists say what their parts say, in order; a tuple with as many entries as fields missing is one tick, a longer or shorter one gives the next field by its first entry; a single value where only the data are missing is the data, and where type and data are missing a number is an increment and a string a category; all else raises an error. Every item has four fields. Lists of tuples or of records, dictionaries by time of dictionaries by label, of lists of triples or of numbers therefore say one tick for each entry, for any number of them. The calls are those of the items, in order, and the stream made of them has the rows of C83; data that can be read make a stream, and there is never anything but a stream or an error. Refuted: labels may be the names of the fields (a channel for each of label, type and data is read as one tick); each item makes a tick (those with another type name, such as Value, are dropped in silence); type names are those of schemas; data may be tuples.", "quantifier": "all Python data of dictionaries, lists, tuples and single values, of any nesting, size and order of keys", "why_tests_cant": "the rules apply at every level of nesting and depend on the fields found above and on all keys; tests parse a few literals", "anchors": ["roughpy/streams/tick_stream.py: StandardTickDataParser.visit, handle_dict, handle_list, handle_tuple, handle_any, BaseTickDataParser.insert, convert_channel_type", "roughpy/src/streams/tick_stream.cpp: construct"]}
{"id": "C85", "title": "Streams of sound files", "statement": "A stream of a sound file gives for an interval one row for each frame from the first at or after its start (never the first frame of the file) to the last before its end. A row has the sample of each channel at the dimension of the channel of the schema, for value channels the difference to the frame before, and 0 elsewhere. So an interval cut in two has the rows of its parts, and those of a value channel add up to the change of its samples. Times outside the file raise an error unless no frame lies between them. Streams made from Python have the width of the file, the type of their context and the length of the file; with no schema and no time their increments are the frames themselves; with a final schema of channels that all have a dimension they are the rows of that schema, which has the width of the file. Refuted: the channel type asked for is used (the channels added are increments); the time asked for is recorded (it stays 0 and the last channel is lost); nothing is read out of range (a channel named by a number leaves the schema narrower than the rows read).", "quantifier": "all files with any frames, channels and rate, all intervals with rational ends, all schemas and keyword arguments", "why_tests_cant": "frames at the ends of intervals and cuts between them depend on rounding of every time; tests read one file once", "anchors": ["streams/src/external_data_sources/sound_file_data_source.cpp: param_to_frame, query_impl, construct_stream", "streams/src/external_data_stream.cpp: log_signature_impl", "roughpy/src/streams/externally_sourced_stream.cpp: external_stream_constructor"]}
{"id": "C86", "title": "Constructors of external data streams", "statement": "Whatever constructors are got for URIs, moved, assigned, destroyed, configured and made into streams, in any order: each payload made by a factory is released at most once, has exactly one holder until then, and is released once its constructor is destroyed, is assigned to or has made its stream. A history is defined exactly if it uses constructors that are not destroyed, and configures or constructs only with those that hold a payload. The factory used is the one registered last among those that accept the URI. Refuted: a constructor that is true can be used (not after construct); payloads are always released (not if making the stream raises an error); the built-in factory stays available (not if another is registered before the first use).", "quantifier": "all histories of operations of any length, all factories, URIs and outcomes of making streams", "why_tests_cant": "double releases and leaks appear only for some orders of moves, assignments and errors; tests make one stream", "anchors": ["streams/src/external_data_stream.cpp: ExternalDataStreamConstructor, register_factory, get_factory_for", "streams/src/external_data_sources/sound_file_data_source.cpp: get_constructor, construct_stream, destroy_payload"]}

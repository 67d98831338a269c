{"id": "C01", "title": "fixed_vector behaves as a bounded list", "statement": "Starting from an empty fixed_vector<T,N>, any sequence of push_back, pop_back, clear, assign, resize(count,value), insert, erase (single and range) leaves the visible contents [begin,end) equal to the contents of an ordinary sequence subjected to the same operations (T trivially copyable, valid positions); size() never exceeds capacity(); an operation that would exceed capacity() fails the assertion and never writes outside the storage.", "quantifier": "every capacity N, every element type that is trivially copyable, every finite sequence of operations with valid iterators", "why_tests_cant": "operation histories and capacities are unbounded; unit tests exercise one capacity and a dozen calls", "anchors": ["ristra/utils/fixed_vector.h: push_back, pop_back, clear, assign, resize, insert, erase"]}
{"id": "C02", "title": "fixed_vector::at is exactly bounds-checked", "statement": "at(i) throws std::out_of_range if and only if i >= size(), and otherwise returns the i-th element of the visible sequence, after any history of operations; elements beyond size() are never returned.", "quantifier": "every history, every index", "why_tests_cant": "needs every index after every history", "anchors": ["ristra/utils/fixed_vector.h: at, operator[], size"]}
{"id": "C03", "title": "fixed_vector::insert works for non-trivially-copyable elements", "statement": "insert(pos,value) yields prefix ++ [value] ++ suffix for every element type, including those that std::copy/std::move copies one element at a time front to back.", "quantifier": "every contents, every position, every element type", "why_tests_cant": "the shift is a forward std::copy onto an overlapping range; with int (memmove) tests pass, so the defect needs a claim over element types", "anchors": ["ristra/utils/fixed_vector.h: insert(const_iterator,const T&), insert(const_iterator,T&&), insert(pos,count,value), insert(pos,first,last), insert(pos,ilist)"]}
{"id": "C04", "title": "fixed_vector operator== is equality of contents", "statement": "lhs == rhs is true exactly when both vectors have the same size and the same elements; hence it is reflexive, symmetric and transitive.", "quantifier": "every pair (triple) of vectors", "why_tests_cant": "quantifies over all pairs of lengths", "anchors": ["ristra/utils/fixed_vector.h: operator=="]}
{"id": "C05", "title": "fixed_vector::insert of an element of the same vector", "statement": "v.insert(pos, v[k]) inserts the value v[k] had before the call (as std::vector guarantees), for every position and k.", "quantifier": "every contents, position and aliased index", "why_tests_cant": "aliasing is a relation between arguments that example-based tests do not enumerate", "anchors": ["ristra/utils/fixed_vector.h: insert(const_iterator,const T&), insert(pos,count,value)"]}
{"id": "C06", "title": "fixed_vector::erase returns the position after the last erased element", "statement": "erase(first,last) leaves prefix ++ suffix and returns an iterator to the element that followed the erased range (first itself when the range is empty), for every valid range.", "quantifier": "every contents and every valid range", "why_tests_cant": "all ranges, including empty ones, for all sizes", "anchors": ["ristra/utils/fixed_vector.h: erase(first,last), erase(pos)"]}
{"id": "C07", "title": "array_ref is always a window of the referenced array", "statement": "After any sequence of substr, remove_prefix, remove_suffix, pop_front, pop_back, clear that passes its assertions, an array_ref designates a contiguous sub-range of the original array, never reaching outside it, and its contents are the corresponding prefix/suffix/middle part; at(i) throws iff i >= size().", "quantifier": "every array, every finite sequence of window operations and arguments", "why_tests_cant": "unbounded histories of shrinking operations with size_t arithmetic", "anchors": ["ristra/utils/array_ref.h: substr, remove_prefix, remove_suffix, pop_front, pop_back, clear, at"]}
{"id": "C08", "title": "replace_all replaces every non-overlapping occurrence and terminates", "statement": "For non-empty `from`, replace_all(str,from,to) terminates and returns str with the leftmost non-overlapping occurrences of `from` replaced by `to` (text inserted by a replacement is not rescanned); for every argument it terminates.", "quantifier": "every string, every pattern, every replacement", "why_tests_cant": "termination and functional behaviour over all strings; self-overlapping patterns; empty pattern", "anchors": ["ristra/utils/string_utils.h: replace_all"]}
{"id": "C09", "title": "Path helpers decompose a path without loss", "statement": "basename returns the part after the last separator; for a path whose last component contains a dot, split_extension returns (stem, extension) with stem + '.' + extension equal to the input; remove_extension and file_extension agree with split_extension; a dot in a directory name is not an extension.", "quantifier": "every path string", "why_tests_cant": "all strings over the alphabet, including dots in directories, trailing separators and empty strings", "anchors": ["ristra/utils/string_utils.h: basename, file_extension, remove_extension, split_extension"]}
{"id": "C10", "title": "split returns exactly the maximal delimiter-free tokens", "statement": "split(str,delims) returns, in order, the maximal non-empty runs of characters that are neither whitespace nor in delims; no token contains a delimiter and no non-delimiter character is lost or duplicated.", "quantifier": "every string, every delimiter list", "why_tests_cant": "all strings, all delimiter sets", "anchors": ["ristra/utils/string_utils.h: split"]}
{"id": "C11", "title": "num_digits and zero_padded give the decimal width", "statement": "num_digits(n) is the number of decimal digits of n; zero_padded(n,w) denotes the number n, has width max(w, digits) and no other characters than digits for n >= 0.", "quantifier": "every non-negative integer and every width", "why_tests_cant": "unbounded numbers", "anchors": ["ristra/utils/string_utils.h: num_digits, zero_padded"]}
{"id": "C12", "title": "Row-major linearization is a bijection", "statement": "For contiguous (and static) bounds of any rank with extents e, linearization maps the contained multi-dimensional indices one-to-one onto 0..size()-1, in lexicographic order, and size() is the product of the extents.", "quantifier": "every rank, all extents, all contained indices", "why_tests_cant": "rank and extents are unbounded; tests use one 3x1x2 array", "anchors": ["ristra/utils/array_view.h: make_strides, contiguous_bounds::linearize, static_bounds::linearize, size, contains"]}
{"id": "C13", "title": "Iterating over bounds visits every index exactly once in row-major order", "statement": "For bounds whose extents are all positive, the sequence begin(), ++begin(), ... up to end() is exactly the list of contained indices in lexicographic (row-major) order without repetition, and it stops at end() after size() steps; -- undoes ++.", "quantifier": "every rank >= 1, all positive extents", "why_tests_cant": "unbounded rank and extents; odometer carry chains", "anchors": ["ristra/utils/array_view.h: bounds_iterator::operator++, operator--, begin, end"]}
{"id": "C14", "title": "Iterating over empty bounds visits nothing", "statement": "If some extent is zero (size() is 0), then begin() == end() and iteration visits no index.", "quantifier": "every rank, all extents with a zero", "why_tests_cant": "needs degenerate shapes in every position", "anchors": ["ristra/utils/array_view.h: bounds_iterator, contiguous_bounds::begin/end, strided_bounds::begin/end"]}
{"id": "C15", "title": "Random access agrees with stepping for bounds iterators", "statement": "begin() + n equals begin() incremented n times, for every 0 <= n <= size(); in particular begin() + size() == end().", "quantifier": "every rank, extents, n", "why_tests_cant": "all n and shapes", "anchors": ["ristra/utils/array_view.h: bounds_iterator::operator+=, operator+, operator[]"]}
{"id": "C16", "title": "Slicing agrees with multi-dimensional indexing", "statement": "For a view v of rank >= 2 and in-range i, the element v[i][rest] (through slicing) is the very same storage cell as v at index (i,rest), and no slice access leaves the storage of v.", "quantifier": "every rank, extents, index", "why_tests_cant": "unbounded rank and extents", "anchors": ["ristra/utils/array_view.h: strided_array_view::operator[], slice, array_view::operator[], slice"]}
{"id": "C17", "title": "Sections address the translated indices of the parent", "statement": "section(origin,bounds) of a view, when accepted by its assertion, gives at index idx the same cell as the parent at origin+idx; every access within its bounds stays inside the parent's storage; sections compose by adding origins.", "quantifier": "every rank, strides, origin, bounds, nested sections", "why_tests_cant": "unbounded nesting, ranks and extents", "anchors": ["ristra/utils/array_view.h: section, strided_bounds::linearize, contains"]}
{"id": "C18", "title": "empty() tells whether a view has no elements", "statement": "view.empty() is true exactly when view.size() == 0.", "quantifier": "every view", "why_tests_cant": "over all shapes", "anchors": ["ristra/utils/array_view.h: strided_array_view::empty, array_view::empty, static_array_view::empty"]}
{"id": "C19", "title": "View equality compares the visible elements", "statement": "Two views of the same rank compare equal exactly when they have the same number of elements and equal elements in iteration order.", "quantifier": "every pair of views including views into the same storage with different strides", "why_tests_cant": "aliasing of storage plus stride combinations", "anchors": ["ristra/utils/array_view.h: operator== for strided_array_view, array_view, static_array_view"]}
{"id": "C20", "title": "Ordering of indices is a strict order", "statement": "operator< on multi-dimensional indices is irreflexive and asymmetric, and operator<= is its reflexive closure, so that origin+bounds <= parent-bounds style checks mean componentwise comparison.", "quantifier": "every rank and pair of indices", "why_tests_cant": "all pairs in all ranks", "anchors": ["ristra/utils/array_view.h: index_t::operator<, <=, >, >="]}
{"id": "C21", "title": "Bounds built from a C array are the same as bounds built from the extents", "statement": "Constructing contiguous bounds from a C array of extents gives row-major strides of those extents.", "quantifier": "every rank and extents", "why_tests_cant": "all shapes; only visible for rank >= 2 with non-trivial extents", "anchors": ["ristra/utils/array_view.h: contiguous_bounds(const value_type (&)[Rank]), protected constructor"]}
{"id": "C22", "title": "zip steps all containers in lockstep and stops at the shortest", "statement": "Iterating zip(c1,..,ck) yields exactly the tuples (c1[i],..,ck[i]) for i = 0 .. min length - 1, in order, and never dereferences past the end of any container.", "quantifier": "every number of containers, all lengths and contents", "why_tests_cant": "arity and lengths unbounded", "anchors": ["ristra/utils/zip.h: zip", "ristra/utils/zip_impl.h: increment, not_equal_tuples, zipper"]}
{"id": "C23", "title": "zip rejects containers of different sizes", "statement": "In a debug build zip(c1,..,ck) accepts its arguments if and only if all containers have the same size.", "quantifier": "every arity and all sizes", "why_tests_cant": "all size vectors; the comparison base is the second container", "anchors": ["ristra/utils/zip.h: zip (size check)"]}
{"id": "C24", "title": "filter_iterator visits exactly the matching elements", "statement": "Iterating a filter_iterator from begin to end yields, in order, exactly the elements satisfying the predicate, and reaches end.", "quantifier": "every predicate, every sequence", "why_tests_cant": "all predicates and sequences; termination", "anchors": ["ristra/utils/filter_iterator.h: filter_iterator"]}
{"id": "C25", "title": "unsorted_set_intersection is the sorted multiset intersection; remove_duplicates keeps one of each", "statement": "unsorted_set_intersection returns a sorted sequence in which every value occurs min(occurrences in a, occurrences in b) times; remove_duplicates leaves each distinct value exactly once.", "quantifier": "every pair of sequences over a total order", "why_tests_cant": "unbounded inputs with repetitions", "anchors": ["ristra/utils/algorithm.h: unsorted_set_intersection, remove_duplicates"]}
{"id": "C26", "title": "daysHoursMinutesSeconds is a normalised decomposition", "statement": "For a non-negative duration the result satisfies 86400 d + 3600 h + 60 m + s = duration with 0<=h<24, 0<=m<60, 0<=s<60, and is the only such decomposition.", "quantifier": "every non-negative duration", "why_tests_cant": "unbounded integers", "anchors": ["ristra/utils/time_utils.h: daysHoursMinutesSeconds"]}
{"id": "C27", "title": "trivial_string keeps the string it was made from and rejects too long ones", "statement": "to_trivial_string<N>(s) followed by str() gives s back for every s that fits with its terminator, and no call writes outside the N-byte buffer.", "quantifier": "every N and every string", "why_tests_cant": "all lengths around and above the capacity", "anchors": ["ristra/utils/trivial_string.h: to_trivial_string, operator[]"]}
{"id": "C28", "title": "Array arithmetic is componentwise, whatever the aliasing", "statement": "For math::array and utils::dimensioned_array, a OP= b, a OP= s and the free operators compute, in every component, the scalar operation applied to the values the operands had before the call, also when the operand is the array itself or one of its own elements, and also for integral element types.", "quantifier": "every length N, element values, operator, aliasing pattern", "why_tests_cant": "aliasing (a += a, a *= a[0]) and integral T are input classes no unit test enumerates", "anchors": ["ristra/math/array.h: operator+=, -=, *=, /=, free operators", "ristra/utils/dimensioned_array.h: define_operator"]}
{"id": "C29", "title": "multi_array element access is a bijection on storage", "statement": "multi_array(i1..iD) addresses a distinct storage cell for each in-range index tuple, all cells are reached, writing one element changes only that element, and at(...) throws iff some index is out of range.", "quantifier": "every rank and extents, every index", "why_tests_cant": "unbounded ranks and extents", "anchors": ["ristra/math/multi_array.h: element, at, operator(), row_major_ordering"]}
{"id": "C30", "title": "Compare-and-swap schemes are linearizable", "statement": "With the strong scheme, for any number of threads each performing any sequence of operations (add, sub, mul, ..., min, max, pre/post increment) on one atomic, under every interleaving there is a sequential order of the completed operations, consistent with each thread's program order, such that the final value and every returned value are those of executing them sequentially in that order.", "quantifier": "every number of threads, every program, every schedule", "why_tests_cant": "schedules are unbounded and nondeterministic", "anchors": ["ristra/atomics/src/atomics.h: apply(strong)", "ristra/atomics/src/atomics-macro-class.h: operator()"]}
{"id": "C31", "title": "Spurious failures do not change the outcome", "statement": "The same holds for the weak scheme when compare_exchange_weak may fail spuriously any number of times.", "quantifier": "every schedule and every pattern of spurious failures", "why_tests_cant": "spurious failures cannot be provoked on common hardware", "anchors": ["ristra/atomics/src/atomics.h: apply(weak), apply_pun(weak::pun)"]}
{"id": "C32", "title": "Concurrent tickets are distinct", "statement": "If n post-increments are performed concurrently by any threads on an integral atomic starting at v (strong or weak scheme), the returned values are exactly v, v+1, ..., v+n-1, each returned once, and the final value is v+n.", "quantifier": "every number of threads, calls and schedule", "why_tests_cant": "schedule-dependent uniqueness", "anchors": ["ristra/atomics/src/atomics.h: postinc, apply(strong), apply(weak)"]}
{"id": "C33", "title": "Commutative updates give a schedule-independent final value", "statement": "For concurrent add/sub (or min, or max) operations the final value depends only on the initial value and the multiset of operands, not on the schedule.", "quantifier": "every schedule", "why_tests_cant": "cannot enumerate schedules", "anchors": ["ristra/atomics/src/atomics.h: addequal, subequal, mineq, maxeq, apply"]}
{"id": "C34", "title": "Strong compare-and-swap makes system-wide progress", "statement": "A thread's strong CAS attempt fails only if another operation on the same atomic completed (with a value change) since the thread last read it; hence among any stretch of attempts some operation completes: a thread running alone completes after one attempt.", "quantifier": "every reachable state and schedule", "why_tests_cant": "liveness-type claim over all schedules", "anchors": ["ristra/atomics/src/atomics.h: apply(strong)"]}
{"id": "C35", "title": "The lock scheme is linearizable when used by all threads", "statement": "If every operation on the atomic uses the lock scheme, no two operations overlap inside the critical section and final and returned values are those of the sequential order of lock acquisitions; mixing lock with a CAS scheme can lose an update.", "quantifier": "every number of threads, program, schedule", "why_tests_cant": "schedules", "anchors": ["ristra/atomics/src/atomics.h: apply(lock), singleton_mutex"]}
{"id": "C36", "title": "The cpp scheme returns the value its own update produced", "statement": "With the cpp scheme x.add(v) (x += v) updates atomically and returns the value resulting from that very update, as the other schemes do.", "quantifier": "every schedule", "why_tests_cant": "needs an interleaving between two machine instructions", "anchors": ["ristra/atomics/src/atomics-macro-class.h: operator()(STDATOMIC&,cpp,...)"]}
{"id": "C37", "title": "determinant is the determinant", "statement": "For every N, determinant(A) equals the Leibniz determinant of A; hence it is multiplicative, alternating and invariant under transposition.", "quantifier": "every dimension N and every matrix over a commutative ring", "why_tests_cant": "unbounded dimension", "anchors": ["ristra/math/matrix.h: determinant, cofactor"]}
{"id": "C38", "title": "inverse is the inverse", "statement": "If det A is non-zero then A*inverse(A) = inverse(A)*A = I, for the 1x1, 2x2, 3x3 specialisations and for the generic N version.", "quantifier": "every dimension and every invertible matrix over a field", "why_tests_cant": "unbounded dimension; all matrices", "anchors": ["ristra/math/matrix.h: inverse (all overloads)"]}
{"id": "C39", "title": "solve solves", "statement": "If det A is non-zero then A * solve(A,b) = b and solve(A, A*x) = x.", "quantifier": "every dimension, matrix and right-hand side", "why_tests_cant": "all systems", "anchors": ["ristra/math/matrix.h: solve, ax_plus_y"]}
{"id": "C40", "title": "matrix_vector computes alpha*A*x + beta*y", "statement": "matrix_vector(alpha,A,x,beta,y) sets y to alpha*A*x + beta*y (the documented BLAS gemv semantics).", "quantifier": "every shape and every alpha, beta", "why_tests_cant": "all alpha/beta; only beta = 1 or one column agrees", "anchors": ["ristra/math/matrix.h: matrix_vector"]}
{"id": "C41", "title": "Matrix product laws", "statement": "operator* and matrix_multiply compute the matrix product (accumulating form: C += A*B): associative, distributive, transpose reverses it, identity neutral, trace(AB)=trace(BA), product with a vector agrees with the matrix product.", "quantifier": "every conforming shapes", "why_tests_cant": "unbounded dimensions", "anchors": ["ristra/math/matrix.h: operator*, matrix_multiply, transpose, identity_traits, trace, outer_product"]}
{"id": "C42", "title": "Reflections, projections and rotations are what they claim", "statement": "For a unit normal n: reflection_matrix(n) is orthogonal, symmetric and an involution and agrees with reflect(v,n); projection_matrix(n) is idempotent, symmetric, kills n; rotation_matrix(angle) preserves lengths, composes by adding angles and has determinant 1.", "quantifier": "every dimension / angle / unit normal / vector", "why_tests_cant": "all unit vectors and angles", "anchors": ["ristra/math/matrix.h: reflection_matrix, projection_matrix, rotation_matrix", "ristra/math/vector.h: reflect"]}
{"id": "C43", "title": "Matrix norms are norms", "statement": "infinity_norm and one_norm are non-negative, zero only for the zero matrix, absolutely homogeneous, satisfy the triangle inequality, are submultiplicative, and one_norm(A) = infinity_norm(transpose A).", "quantifier": "every shape and matrix", "why_tests_cant": "unbounded shapes", "anchors": ["ristra/math/matrix.h: infinity_norm, one_norm, transpose"]}
{"id": "C44", "title": "Vector algebra identities", "statement": "cross_product is orthogonal to both arguments, antisymmetric and satisfies |a x b|^2 = |a|^2|b|^2-(a.b)^2; triple_product is alternating; dot_product is bilinear symmetric; magnitude is a norm (Cauchy-Schwarz, triangle inequality); unit(v) has magnitude 1 for v != 0; reflect preserves magnitude.", "quantifier": "every dimension (where applicable) and all vectors", "why_tests_cant": "all real vectors of all lengths", "anchors": ["ristra/math/general.h: dot_product, magnitude, cross_product, triple_product, unit, normal", "ristra/math/vector.h: reflect"]}
{"id": "C45", "title": "average lies between the extremes; element-wise min/max of containers are element-wise", "statement": "average of a non-empty sequence is sum/count and lies between min_element and max_element; elementwise min/max return, for any two containers of the same size, the componentwise minimum/maximum.", "quantifier": "every length and contents, std::vector included", "why_tests_cant": "all lengths and container kinds", "anchors": ["ristra/math/general.h: average, min_element, max_element, min, max"]}
{"id": "C46", "title": "2-D polygon area is a geometric invariant", "statement": "The area of a polygon equals half the absolute shoelace sum over its closed vertex list; it is invariant under translation, rotation, cyclic relabelling and reversal of the vertices, and scales quadratically; the variadic and the iterator versions agree.", "quantifier": "every number of vertices >= 3 and all coordinates", "why_tests_cant": "unbounded vertex counts and real coordinates", "anchors": ["ristra/geometry/shapes/polygon.h: polygon<2>::area", "ristra/geometry/area.h: area_2d"]}
{"id": "C47", "title": "2-D polygon centroid is equivariant", "statement": "For a polygon of non-zero area the centroid moves with translations, is unchanged by cyclic relabelling and reversal, and for a triangle equals the vertex average.", "quantifier": "every number of vertices and coordinates", "why_tests_cant": "unbounded vertex counts", "anchors": ["ristra/geometry/shapes/polygon.h: polygon<2>::centroid", "ristra/geometry/centroid.h: centroid_2d"]}
{"id": "C48", "title": "Tetrahedron volume", "statement": "tetrahedron::volume(p0..p3) is |(p1-p0).((p2-p0)x(p3-p0))|/6; invariant under translation, rotation and every permutation of the vertices; zero iff coplanar.", "quantifier": "all points", "why_tests_cant": "all real points", "anchors": ["ristra/geometry/shapes/tetrahedron.h: volume"]}
{"id": "C49", "title": "Hexahedron volume agrees with the polyhedron volume of its six faces", "statement": "For every hexahedron with vertices in the documented order, hexahedron::volume equals the volume the polyhedron class computes for the same eight vertices and six faces.", "quantifier": "all eight-vertex configurations", "why_tests_cant": "all distorted hexahedra; tests use boxes", "anchors": ["ristra/geometry/shapes/hexahedron.h: volume", "ristra/geometry/shapes/polyhedron.h: volume"]}
{"id": "C50", "title": "Polyhedron volume does not depend on position or orientation convention", "statement": "For a closed polyhedron (face normals summing to zero) volume is invariant under translation, and for every polyhedron it is unchanged when all faces are reversed and when faces are inserted in another order.", "quantifier": "every number of faces and vertices per face", "why_tests_cant": "unbounded face lists", "anchors": ["ristra/geometry/shapes/polyhedron.h: volume, insert"]}
{"id": "C51", "title": "Planar 3-D polygon area and normal", "statement": "The 3-D polygon area/normal of a triangle, given in any rotation of its vertex list, are the triangle's area and normal, and triangles are accepted by every overload.", "quantifier": "all triangles / polygons", "why_tests_cant": "overload coverage for all vertex counts", "anchors": ["ristra/geometry/shapes/polygon.h: polygon<3>::area, normal, centroid", "ristra/geometry/shapes/triangle.h"]}
{"id": "C52", "title": "Shape functions form a partition of unity and interpolate nodes", "statement": "For Quad_4/8/12, Hex8/20/32 and Tess16 the basis values sum to 1 at every reference point and the basis of node i is 1 at node i and 0 at every other node; physical_position reproduces vertices at nodes and commutes with affine maps of the vertices.", "quantifier": "every reference point, every vertex coordinates", "why_tests_cant": "all real reference points", "anchors": ["ristra/elements/elements.cc: physical_position, basis, ref_vert"]}
{"id": "C53", "title": "Shape-function partials are the derivatives of the shape functions", "statement": "partial_xi/eta/mu/tau_shape_fcn return, for every node and reference point, the partial derivative of the corresponding basis function used by physical_position.", "quantifier": "every reference point and node of every element class", "why_tests_cant": "derivative claims over the continuum", "anchors": ["ristra/elements/elements.cc: partial_xi_shape_fcn, partial_eta_shape_fcn, partial_mu_shape_fcn, partial_tau_shape_fcn"]}
{"id": "C54", "title": "basis() agrees with the basis used by physical_position", "statement": "For every element class basis() fills in one value per node and they are the shape functions that physical_position uses (in particular they sum to 1).", "quantifier": "every element class, every reference point", "why_tests_cant": "all points; only a sum over the full node set reveals the difference", "anchors": ["ristra/elements/elements.cc: Quad_12_2D::basis, Quad_12_2D::physical_position and the other classes"]}
{"id": "C55", "title": "Gauss and Lobatto rules are exact to their degree", "statement": "The n-point Gauss rule integrates every polynomial of degree <= 2n-1 over [-1,1] exactly (n<=5, exact arithmetic) and within 1e-14 for tabulated n=6..8; the n-point Lobatto rule does so to degree 2n-3; abscissae are symmetric, weights positive with sum 2.", "quantifier": "all polynomials of the stated degree", "why_tests_cant": "infinitely many polynomials", "anchors": ["ristra/elements/elements.cc: LineGaussRuleInfo, LineLobattoRuleInfo"]}
{"id": "C56", "title": "Tensor-product quadrature enumerates every index tuple exactly once", "statement": "Gauss2D/3D/4D (and Lobatto) assign to point number m the 1-D points i,j,k,l such that m -> (i,j,k,l) is a bijection of 0..n^d-1 with {1..n}^d, so weights multiply and sum to 2^d; an iterated sum over the 1-D rule equals the sum over m.", "quantifier": "every order n and every integrand", "why_tests_cant": "unbounded n", "anchors": ["ristra/elements/elements.cc: Gauss2D, Gauss3D, Gauss4D, Lobatto2D, Lobatto3D, Lobatto4D"]}
{"id": "C57", "title": "Jacobian inverses are inverses and determinants are determinants", "statement": "jacobian and jacobian4D compute J and det J; jacobian_inverse_2d/3d/4d return the inverse of J whenever det J != 0.", "quantifier": "all matrices with non-zero determinant", "why_tests_cant": "all matrices; symmetric or diagonal tests hide index errors", "anchors": ["ristra/elements/elements.cc: jacobian, jacobian4D, jacobian_inverse_2d, jacobian_inverse_3d, jacobian_inverse_4d"]}
{"id": "C58", "title": "1-D Lagrange basis of arbitrary order", "statement": "For pairwise distinct nodes and every order, lagrange_1D returns values L_i(x) with L_i(node_j) = [i=j], summing to 1, reproducing every polynomial of degree <= order, and Dinterp is the derivative of interp with respect to x.", "quantifier": "every order, all distinct nodes, all x", "why_tests_cant": "unbounded order", "anchors": ["ristra/elements/elements.cc: QuadN::lagrange_1D, HexN::lagrange_1D"]}
{"id": "C59", "title": "Arbitrary order tensor elements", "statement": "QuadN/HexN::basis_partials give node m the coordinates and the product basis of its (i,j,k) index; the basis is nodal and sums to 1; corners() picks the nodes at the element corners; physical_position returns the position in all coordinates.", "quantifier": "every order and reference point", "why_tests_cant": "unbounded order", "anchors": ["ristra/elements/elements.cc: QuadN::basis_partials, HexN::basis_partials, corners, physical_position"]}
{"id": "C60", "title": "Chebyshev nodes are strictly increasing in [-1,1]", "statement": "chebyshev_nodes_1D(order) for order >= 1 yields order+1 strictly increasing nodes from -1 to 1, symmetric about 0, hence pairwise distinct.", "quantifier": "every order", "why_tests_cant": "unbounded order", "anchors": ["ristra/elements/elements.cc: chebyshev_nodes_1D"]}
{"id": "C61", "title": "Lua has priority over hard-coded defaults", "statement": "After resolve_inputs every registered target present in the Lua source has the Lua value; every other target present in the hard-coded source has the hard-coded value; the result reports success iff every target was found in some source.", "quantifier": "every set of targets and sources", "why_tests_cant": "all source contents and registration orders", "anchors": ["ristra/initialization/input_engine.h: resolve_inputs_, resolve_input_, get_value, resolved"]}
{"id": "C62", "title": "Targets missing from Lua fall back to the hard-coded default", "statement": "When the Lua source does not define a target, resolution falls back to the hard-coded source without error.", "quantifier": "every target and Lua source", "why_tests_cant": "depends on which keys the table map holds", "anchors": ["ristra/initialization/input_source.h: lua_source_t::value_getter, get_value", "ristra/initialization/input_engine.h: resolve_inputs_"]}
{"id": "C63", "title": "Resolving twice is idempotent", "statement": "Calling resolve_inputs (or get_instant_value) again with unchanged sources yields the same values as the first time.", "quantifier": "every number of resolutions and all histories", "why_tests_cant": "histories of calls; value types with destructive moves", "anchors": ["ristra/initialization/input_source.h: hard_coded_source_t::get_value", "ristra/initialization/input_engine.h: resolve_inputs, get_instant_value"]}
{"id": "C64", "title": "Re-registering a function and resolving again takes effect", "statement": "For function-valued targets, as for plain values, a resolution after the source changed delivers the new function.", "quantifier": "every history of registration and resolution", "why_tests_cant": "histories", "anchors": ["ristra/initialization/input_engine.h: input_registry<std::function> resolve_inputs_, resolve_input_"]}
{"id": "C65", "title": "resolved() tells the truth after the latest resolution", "statement": "After resolve_inputs, resolved(name) is true iff the latest resolution found a value for name; after clear_registry nothing is resolved.", "quantifier": "every history", "why_tests_cant": "histories", "anchors": ["ristra/initialization/input_engine.h: resolved, clear, clear_registry, resolve_inputs_"]}
{"id": "C66", "title": "init_value::get returns only validated values", "statement": "init_value::get() returns a value only if the user's validator accepts it; otherwise it throws; valid() agrees with the validator on the current value.", "quantifier": "every validator, value and history of calls", "why_tests_cant": "histories of calls between re-resolutions", "anchors": ["ristra/initialization/init_value.h: get, valid, resolved"]}
{"id": "C67", "title": "Distinct (namespace,name) pairs name distinct inputs", "statement": "Two init_values with different (namespace,name) pairs refer to different inputs.", "quantifier": "every pair of names", "why_tests_cant": "injectivity over all strings", "anchors": ["ristra/initialization/init_value.h: full_name"]}
{"id": "C68", "title": "Parameter registration maps each key to its own parameter", "statement": "register_parameter stores the given value for a new (group,variable) pair, never changes another pair's value, and reports whether the registration took effect.", "quantifier": "every history of registrations", "why_tests_cant": "histories, key collisions", "anchors": ["ristra/initialization/input.h: register_group, register_parameter"]}
{"id": "C69", "title": "Lua stack discipline", "statement": "Calling a Lua function, reading a field or element and converting a result leave the Lua stack as they found it, on success and on failure, so that nested uses do not disturb each other.", "quantifier": "every initial stack, every function and value", "why_tests_cant": "depends on what is below on the stack", "anchors": ["ristra/embedded/embed_lua.h: lua_result_t::operator(), operator[], as, conversion operators, check_result"]}
{"id": "C70", "title": "Results of a Lua call arrive in order", "statement": "A Lua function returning r1,..,rn converted to a tuple yields (r1,..,rn) in order, and extra results follow Lua rules.", "quantifier": "every number of results and every initial stack", "why_tests_cant": "arity unbounded", "anchors": ["ristra/embedded/embed_lua.h: lua_result_t::operator(), get_results, push_all, as"]}
{"id": "C71", "title": "Values pushed to Lua and read back are unchanged", "statement": "lua_push followed by lua_value::get is the identity for booleans, integers in range, floats, strings; vectors/arrays read from a Lua table contain exactly its elements, arrays of the wrong length are rejected.", "quantifier": "every value and every stack", "why_tests_cant": "all values", "anchors": ["ristra/embedded/embed_lua.h: lua_value, lua_push"]}
{"id": "C72", "title": "Design-by-contract checks fire exactly when violated", "statement": "With checks enabled each Require/Ensure/Equal/OneOf/... check passes iff its condition holds and otherwise performs the configured action exactly once with the source location; the throwing action never lets execution continue; with checks disabled it evaluates to its documented value and has no effect.", "quantifier": "every condition, action and argument list", "why_tests_cant": "all configurations", "anchors": ["ristra/assertions/dbc.h", "ristra/assertions/detail/dbc_impl.h", "ristra/assertions/detail/dbc_impl.cc"]}
{"id": "C73", "title": "VTK face stream is decodable", "statement": "The polyhedron face stream built for a cell lists for each face its vertex count followed by its vertex ids (reversed when the cell is not the face's first cell), so that the faces can be recovered uniquely from the stream.", "quantifier": "every cell with any number of faces and vertices", "why_tests_cant": "unbounded meshes", "anchors": ["ristra/io/catalyst/flecsale_unstructuredGrid.h: writeCellsToGrid, createMesh"]}
{"id": "C74", "title": "tuple and compile-time loops visit every component in order", "statement": "tuple_visit, tuple_for_each and static_for apply the function to components 0..N-1 exactly once each in increasing order; the tuple operators built on them are componentwise.", "quantifier": "every arity and function with side effects", "why_tests_cant": "arity unbounded", "anchors": ["ristra/utils/tuple_visit.h", "ristra/utils/static_for.h", "ristra/math/tuple.h"]}
{"id": "C75", "title": "fixed_vector::resize(n) value-initialises new elements", "statement": "Growing a fixed_vector with resize(n) makes the new elements value-initialised (as std::vector does), whatever happened to the vector before.", "quantifier": "every vector state and every n up to the capacity", "why_tests_cant": "needs every earlier history; a fresh zeroed object hides it", "anchors": ["ristra/utils/fixed_vector.h: resize(size_type)"]}
{"id": "C76", "title": "A view accepted over a container stays inside the container", "statement": "If constructing a (strided or contiguous) view from a container and bounds passes its assertion, every in-range index addresses an element of the container.", "quantifier": "every container size, extents and strides", "why_tests_cant": "all stride/extent combinations", "anchors": ["ristra/utils/array_view.h: strided_array_view(Container&, bounds_type), total_size"]}
{"id": "C77", "title": "col_major_ordering is a valid column-major layout", "statement": "For every shape the strides produced by col_major_ordering map in-range index tuples one-to-one onto 0..size-1.", "quantifier": "every rank and extents", "why_tests_cant": "square shapes hide the error; unbounded shapes", "anchors": ["ristra/math/multi_array.h: col_major_ordering"]}
{"id": "C78", "title": "math::array behaves as a fixed-size sequence", "statement": "at() returns the element or throws iff the index is out of range; swap exchanges all elements; assign replaces the elements; == is equality and < is the lexicographic strict total order.", "quantifier": "every length, contents, index and component order", "why_tests_cant": "unbounded lengths and orders", "anchors": ["ristra/math/array.h: at, operator[], swap, assign, operator==, operator<"]}
{"id": "C79", "title": "Used by one thread, every atomicity scheme gives the sequential results", "statement": "If only one thread uses the atomic, any program mixing all schemes (serial included) returns and leaves exactly the values of running its operations sequentially on a plain variable.", "quantifier": "every program, every scheme per operation, every prefix of the execution", "why_tests_cant": "unbounded programs and scheme mixes", "anchors": ["ristra/atomics/src/atomics.h: apply, apply_pun", "ristra/atomics/src/atomics-macro-class.h", "ristra/atomics/src/atomics-macro-class-prepost.h"]}
{"id": "C80", "title": "exponential(A) and exponential(-A) are inverse", "statement": "Whenever exponential(A) and exponential(-A) both return, their product is the identity.", "quantifier": "every dimension, every matrix, every scaling count the norm gives rise to", "why_tests_cant": "all matrices; the number of squarings is unbounded", "anchors": ["ristra/math/matrix.h: exponential, infinity_norm, inverse"]}
{"id": "C81", "title": "exponential is the matrix exponential", "statement": "exponential returns for every matrix; where the exponential series is a finite sum of at most 13 terms (A^13 = 0), the result is exactly that sum.", "quantifier": "every dimension and every matrix with A^13 = 0, the zero matrix included", "why_tests_cant": "all nilpotent matrices in all dimensions, any number of squarings", "anchors": ["ristra/math/matrix.h: exponential"]}
{"id": "C82", "title": "Accumulating products with a shared operand", "statement": "ax_plus_y and the accumulating matrix_multiply write only the destination block and add the product of the values passed, also when an operand is the destination object.", "quantifier": "every shape, every aliasing pattern", "why_tests_cant": "aliasing is never exercised by tests; all shapes", "anchors": ["ristra/math/matrix.h: ax_plus_y, matrix_multiply"]}
{"id": "C83", "title": "distance is a metric; midpoint and centroid of points", "statement": "distance and delta_magnitude are the same metric (non-negative, zero only for equal points, symmetric, triangle inequality); midpoint is at half the distance from both ends; the centroid of a list of points is their average, moves with translations, lies inside every bounding box of the points and does not depend on the direction the points are listed in.", "quantifier": "every dimension, all points, every number of points", "why_tests_cant": "all real points in all dimensions", "anchors": ["ristra/geometry/point.h: distance, midpoint, centroid", "ristra/math/general.h: delta_magnitude"]}
{"id": "C84", "title": "The centroid of a closed polyhedron is its volume-weighted mean position", "statement": "For every closed polyhedron of non-zero volume the boundary formula of polyhedron::centroid equals the volume-weighted mean of the centroids of the signed tetrahedra it is made of; hence it moves with translations and with every invertible linear map, ignores face order and orientation convention, and gives the vertex average for a tetrahedron; hexahedron::centroid is the same quantity.", "quantifier": "every number of faces and vertices per face, planar or not; all coordinates", "why_tests_cant": "unbounded face lists and real coordinates; tests use boxes", "anchors": ["ristra/geometry/shapes/polyhedron.h: centroid, midpoint", "ristra/geometry/shapes/hexahedron.h: centroid, midpoint", "ristra/geometry/shapes/tetrahedron.h: midpoint"]}
{"id": "C85", "title": "The area of a planar 3-D polygon is the length of its area vector", "statement": "For every planar polygon in space, area equals the magnitude of normal.", "quantifier": "every number of vertices, convex or not", "why_tests_cant": "tests use convex quadrilaterals", "anchors": ["ristra/geometry/shapes/polygon.h: polygon<3>::area, normal"]}
{"id": "C86", "title": "The Lua source is built exactly from files that define hydro with a mesh", "statement": "Constructing a Lua source succeeds iff the file defines a global table hydro whose entry mesh is not nil; the fourteen known names are then looked up in hydro and hydro.mesh under their Lua names.", "quantifier": "every Lua file (every assignment of globals)", "why_tests_cant": "all files", "anchors": ["ristra/initialization/input_source.h: lua_source_t constructor, load_table"]}
{"id": "C87", "title": "register_table loads the named table", "statement": "register_table(name, parent, key) makes the parent's entry key (name if empty) available as table name, also when name was registered before, and reports whether it replaced a definition.", "quantifier": "every source, name, parent and key", "why_tests_cant": "all sources and histories", "anchors": ["ristra/initialization/input_source.h: register_table, register_value, load_table"]}
{"id": "C88", "title": "A lookup that throws leaves the other targets usable", "statement": "If looking up one target throws, the other targets are still resolved.", "quantifier": "every set of targets and sources", "why_tests_cant": "depends on string order of targets", "anchors": ["ristra/initialization/input_engine.h: resolve_inputs_", "ristra/initialization/input_source.h: value_getter"]}
{"id": "C89", "title": "A Lua reference records the type of the value it refers to", "statement": "lua_ref_t and make_ref create a reference that, when pushed, gives the value that was on top of the stack, and its recorded type is the type of that value.", "quantifier": "every stack and every value", "why_tests_cant": "all stacks", "anchors": ["ristra/embedded/embed_lua.h: lua_ref_t, make_lua_ref"]}
{"id": "C90", "title": "No operation overflows the Lua stack frame", "statement": "Every push performed by the wrapper happens with a free slot in the frame, growing it first when necessary.", "quantifier": "every stack fill level and every argument list", "why_tests_cant": "depends on how full the frame is", "anchors": ["ristra/embedded/embed_lua.h: lua_push, lua_value::get, lua_t::operator[], lua_result_t"]}
{"id": "C91", "title": "A matrix is read only from a table of M rows with N columns", "statement": "Converting a Lua value to an M by N array succeeds exactly for a table of M tables of N convertible entries each, and then gives these entries.", "quantifier": "every table, M and N", "why_tests_cant": "all shapes", "anchors": ["ristra/embedded/embed_lua.h: lua_value<std::array<std::array>>"]}
{"id": "C92", "title": "A vector is read from the index it was asked for", "statement": "lua_value<vector>::get(s, index) reads the table at the given stack index.", "quantifier": "every stack and index", "why_tests_cant": "only the top is ever tested", "anchors": ["ristra/embedded/embed_lua.h: lua_value<std::vector>::get"]}
{"id": "C93", "title": "Integer conversion rejects what is not an integer in range", "statement": "Converting a Lua value to an integer type gives the value's integer when there is one representable in the type and an error otherwise.", "quantifier": "every value", "why_tests_cant": "all values", "anchors": ["ristra/embedded/embed_lua.h: lua_value<int>::get, lua_value<size_t>::get"]}
{"id": "C94", "title": "Running a script leaves the stack unchanged", "statement": "run_string leaves the height of the stack as it was.", "quantifier": "every script result list", "why_tests_cant": "all scripts", "anchors": ["ristra/embedded/embed_lua.h: lua_t::run_string"]}
{"id": "C95", "title": "Enabling checks does not change what arguments do", "statement": "The effects of the argument expressions of a check are the same with checks enabled and disabled, each being evaluated once.", "quantifier": "every argument expression with effects", "why_tests_cant": "all programs", "anchors": ["ristra/assertions/dbc.h: macros"]}
{"id": "C96", "title": "Error macros behave as single statements and carry their message", "statement": "Raising an error prints location and message and never continues; the exception carries the message; assert_true and the checks can be used wherever a statement can, including before else.", "quantifier": "every message, location and surrounding statement", "why_tests_cant": "all uses", "anchors": ["ristra/assertions/errors.h", "ristra/assertions/exceptions.h", "ristra/assertions/here.h", "ristra/assertions/dbc.h"]}
{"id": "C97", "title": "createMesh inserts exactly the owned cells", "statement": "In three dimensions createMesh inserts one polyhedron for every owned cell, in mesh order, and none for ghost cells, each with its points and a decodable face stream.", "quantifier": "every mesh and every set of owned cells", "why_tests_cant": "all meshes and partitions", "anchors": ["ristra/io/catalyst/flecsale_unstructuredGrid.h: createMesh"]}
{"id": "C98", "title": "Points are found under their vertex identifiers", "statement": "The point with number id in the VTK grid has the coordinates of vertex id, padded with zeros, whatever order vertices are iterated in.", "quantifier": "every mesh and iteration order", "why_tests_cant": "all orders", "anchors": ["ristra/io/catalyst/flecsale_unstructuredGrid.h: writePointsToGrid, createMesh"]}
{"id": "C99", "title": "createMesh stays within its arrays", "statement": "createMesh performs no access outside its arrays, in two and three dimensions.", "quantifier": "every mesh", "why_tests_cant": "all meshes", "anchors": ["ristra/io/catalyst/flecsale_unstructuredGrid.h: createMesh"]}
{"id": "C100", "title": "Attribute arrays hold tuples of component values", "statement": "setScalarData, setVectorData and setTensorData store n tuples, tuple i holding the i-th value of every component, and do not read outside the data.", "quantifier": "every number of components and elements", "why_tests_cant": "all sizes", "anchors": ["ristra/io/catalyst/vtk/unstructuredGrid.h: setScalarData, setVectorData, setTensorData"]}
{"id": "C101", "title": "Every vertex cell refers to a point of the grid", "statement": "After any calls of addPoint and setPoints each cell refers to an existing point.", "quantifier": "every sequence of calls", "why_tests_cant": "all histories", "anchors": ["ristra/io/catalyst/vtk/unstructuredGrid.h: addPoint, setPoints"]}
{"id": "C102", "title": "getDuration is the time between the last start and the last stop", "statement": "getDuration(name) is the time from the latest start of name to the latest stop after it and -1 while it runs or if it never started; other timers do not matter.", "quantifier": "every history of calls", "why_tests_cant": "all histories", "anchors": ["ristra/io/catalyst/utils/insituTimer.hpp: start, stop, getDuration"]}
{"id": "C103", "title": "The adaptor runs pipelines when they ask for data", "statement": "process and processCatalyst call CoProcess iff the processor requests data for the step, output being forced on the last step only; finalizeAdaptor returns.", "quantifier": "every processor and step", "why_tests_cant": "all pipelines", "anchors": ["ristra/io/catalyst/adaptor.h: processCatalyst, adaptor_t::process, finalizeAdaptor"]}
{"id": "C104", "title": "Catalyst scripts are looked up beside the input file", "statement": "getCatalystScripts returns the listed scripts relative to the directory of the input file.", "quantifier": "every file name and list", "why_tests_cant": "all names", "anchors": ["ristra/io/catalyst/utils/catalystUtils.hpp: getCatalystScripts"]}
{"id": "C105", "title": "replaceInString replaces the first occurrence", "statement": "replaceInString returns the text with its first occurrence of the pattern replaced, and the text itself when there is none.", "quantifier": "every text and pattern", "why_tests_cant": "all texts", "anchors": ["ristra/io/catalyst/utils/catalystUtils.hpp: replaceInString"]}
{"id": "C106", "title": "Files and images are compared correctly", "statement": "compareFiles is true iff both files can be read and have equal contents; imageCompare is true iff both images load, have equal shape and at most 2 percent of the bytes differ; it is symmetric.", "quantifier": "every pair", "why_tests_cant": "all contents", "anchors": ["ristra/io/catalyst/utils/catalystUtils.hpp: compareFiles, imageCompare"]}
{"id": "C107", "title": "exponential is accurate for every non-zero matrix", "statement": "With the number of squarings it computes, exponential returns for every non-zero real matrix (its denominator is always invertible) and each row of the result differs from the matrix exponential by at most exp(norm) ((1+eta)^(2^s)-1), eta = 6!^2/(12! 13! 2^12); for norms up to 10^15 at most 10^-15 max(1,norm) exp(norm).", "quantifier": "every dimension and every non-zero real matrix", "why_tests_cant": "all matrices of all dimensions; the matrix exponential is an infinite sum", "anchors": ["ristra/math/matrix.h: exponential, infinity_norm, inverse"]}
{"id": "C108", "title": "The reference nodes are numbered as the pictures show", "statement": "The ref_vert tables place every corner, edge-midpoint and edge-third node of Quad_4/8/12_2D, Hex8/20/32 and Tess16 where the picture above the table draws it, and the hexahedra are left-handed as noted.", "quantifier": "every node of every fixed-order element", "why_tests_cant": "the tests never compare tables with pictures", "anchors": ["ristra/elements/elements.cc: Quad_4_2D::ref_vert ... Tess16 ref_vert"]}
{"id": "C109", "title": "Neighbouring elements agree on a shared face", "statement": "On a face of the reference element physical_position depends only on the nodes of that face; if a second element of the same kind has its opposite face at the same node positions, both map every point of the face to the same place.", "quantifier": "every element kind, every face direction, every point of the face and all vertex positions", "why_tests_cant": "all points of the face and all shapes of both elements", "anchors": ["ristra/elements/elements.cc: physical_position of Quad_4_2D ... Tess16"]}
{"id": "C110", "title": "The shape functions reproduce polynomials of the order of the element", "statement": "Interpolating with the shape functions of Quad_4/8/12_2D and Hex8/20/32 reproduces every polynomial of total degree at most 1/2/3, the linear elements every multilinear function; the degrees are the largest possible.", "quantifier": "every polynomial of that degree and every point", "why_tests_cant": "all polynomials at all points", "anchors": ["ristra/elements/elements.cc: physical_position of Quad_4_2D ... Tess16"]}
{"id": "C111", "title": "Python references are balanced", "statement": "python_import, python_get_attribute, python_get_value, python_build_args and python_call_function leave the program with exactly one new reference, to the returned object, when they return, and with none when they throw.", "quantifier": "every behaviour of the interpreter, every argument list", "why_tests_cant": "needs every way in which the interpreter can fail", "anchors": ["ristra/embedded/embed_python.h: python_import, python_get_attribute, python_get_value, python_build_args, python_call_function"]}
{"id": "C112", "title": "Every returned Python object may be released once", "statement": "What any of the functions returns is a reference owned by the caller, so python_free on it restores the balance.", "quantifier": "every function returning a PyObject pointer, every behaviour of the interpreter", "why_tests_cant": "over-release only shows when the interpreter happens to destroy the object", "anchors": ["ristra/embedded/embed_python.h: python_add_to_path, python_get_tuple_element, python_free"]}
{"id": "C113", "title": "Python functions receive the arguments in order", "statement": "python_call_function passes exactly the given numbers, in order; python_as_long and python_as_double return what python_get_value was given.", "quantifier": "every argument list and every value of long, int and double", "why_tests_cant": "all lists of all lengths", "anchors": ["ristra/embedded/embed_python.h: python_build_args, python_call_function, python_as_long, python_as_double"]}
{"id": "C114", "title": "Python errors are reported and cleared", "statement": "When a call into Python fails the function throws after printing and clearing the error indicator; otherwise the indicator is unchanged.", "quantifier": "every function and every behaviour of the interpreter", "why_tests_cant": "all failures", "anchors": ["ristra/embedded/embed_python.h: python_check, python_as_long, python_as_double, python_run_string"]}
{"id": "C115", "title": "The program name stays available", "statement": "After python_set_program_name the interpreter can read the name it was given.", "quantifier": "every name and every Python version", "why_tests_cant": "memory that has been freed often still holds the text", "anchors": ["ristra/embedded/embed_python.h: python_set_program_name"]}
{"id": "C116", "title": "Atomicity does not depend on other variables or on memory orders", "statement": "When threads work on any number of atomic variables, the operations on a variable that is updated only by compare-and-swap schemes, or only by the lock scheme, are linearizable; this holds for every choice of memory orders, and for every sharing of mutexes between variables.", "quantifier": "any number of threads and variables, any programs, any interleaving, any stale value returned by a load or a failed compare-exchange", "why_tests_cant": "weak orders and schedules cannot be enumerated by running", "anchors": ["ristra/atomics/src/atomics.h: apply (strong, weak, strong::pun, weak::pun, lock), atomic::singleton_mutex"]}
{"id": "C117", "title": "A variable used under the lock scheme has no data race", "statement": "If every update of a variable uses the lock scheme, no two threads ever access it without synchronisation.", "quantifier": "all programs and schedules", "why_tests_cant": "data races are undefined behaviour and rarely visible", "anchors": ["ristra/atomics/src/atomics.h: apply (lock), atomic::ref, atomic::operator T, operator<<"]}
{"id": "C118", "title": "Mutexes cannot deadlock", "statement": "In every reachable state some unfinished thread can take a step, whatever schemes are mixed on whatever variables; without compare-and-swap loops every execution ends within six steps per operation.", "quantifier": "all programs, schedules and assignments of mutexes to variables", "why_tests_cant": "all interleavings", "anchors": ["ristra/atomics/src/atomics.h: apply (lock), atomic::singleton_mutex"]}
{"id": "C119", "title": "The punned schemes use an integer type of the right size", "statement": "For every size of T at most one of the five overloads of apply for strong::pun and weak::pun is viable, its integer type has exactly the size of T, and there is none only if no integer type has that size.", "quantifier": "all sizes of the integer types in the order C++ guarantees, all sizes of T", "why_tests_cant": "only one platform is at hand", "anchors": ["ristra/atomics/src/atomics.h: atomics_make_apply"]}
{"id": "C120", "title": "Operators and functions perform the operation they are named after", "statement": "Every operator, member function and free function applies the C++ operation of its name, under the variable's scheme unless another is named, and hands valid memory orders to compare_exchange.", "quantifier": "all operators, functions, operands, schemes and memory orders", "why_tests_cant": "all operands; undefined behaviour of invalid memory orders", "anchors": ["ristra/atomics/src/atomics.h: function objects, functions, members, operators, get_scheme", "ristra/atomics/src/atomics-macro-operator.h", "ristra/atomics/src/atomics-macro-member.h", "ristra/atomics/src/atomics-macro-function.h"]}
{"id": "C121", "title": "space_vector functions have their geometric meaning", "statement": "cross_magnitude is the area of the parallelogram of its arguments in one, two and three dimensions and vanishes exactly for dependent vectors; the normal of an edge is orthogonal to it, as long as it and on its left; the normal of two vectors is orthogonal to both, right-handed and as long as the area.", "quantifier": "all real vectors", "why_tests_cant": "an identity over the reals", "anchors": ["ristra/geometry/space_vector.h: point_to_vector, operator*, dot, magnitude, cross_magnitude, normal"]}
{"id": "C122", "title": "dimensioned_array construction defines every element", "statement": "Construction from a list, by filling or by assigning a value leaves every element defined with the given value, and nothing else is written.", "quantifier": "all element types, dimensions, lists and aliasing values", "why_tests_cant": "reads of uninitialised or foreign memory often go unnoticed", "anchors": ["ristra/utils/dimensioned_array.h: constructors, operator[], operator=, operator<<"]}
{"id": "C123", "title": "Command line options do not depend on registration order", "statement": "Every registered argument reaches the parser, in the group it was registered in and in order of registration; groups appear in key order with the title they were registered with, however registrations of different groups are interleaved.", "quantifier": "all sequences of registrations", "why_tests_cant": "the order of static initialisation across translation units is unspecified", "anchors": ["ristra/initialization/arguments.h: register_group, register_argument, process_arguments"]}
{"id": "C124", "title": "Command line variables and errors", "statement": "as returns the given value, the default exactly when the variable is absent, and throws on another type; process_arguments turns every parse error into its error flag, prints only if asked and shows help only on success.", "quantifier": "all parsers, option tables and command lines", "why_tests_cant": "all command lines", "anchors": ["ristra/initialization/arguments.h: command_line_variables_t::as, count, process_arguments"]}
{"id": "C125", "title": "Log files hold what was written last", "statement": "After any sequence of log actions a file holds what the last replacing action wrote followed by everything appended since; a log object holds what was put in since the last clear.", "quantifier": "all sequences of actions, all file names and initial contents", "why_tests_cant": "all histories", "anchors": ["ristra/io/catalyst/utils/insituLog.hpp: InsituLog, writeLog, writeLogApp, writeLogNew"]}
{"id": "C126", "title": "A simple task runs once per index", "statement": "simple_task calls the function exactly once for every index, in increasing order, on the elements of that index of every container.", "quantifier": "any number of containers of equal size, overlapping or not, any function", "why_tests_cant": "all functions and overlaps", "anchors": ["ristra/utils/tasks.h: simple_task, simple_task_impl", "ristra/utils/zip.h: zip"]}
{"id": "C127", "title": "Inner products are accurate in floating-point arithmetic", "statement": "A dot product, an element of a matrix-vector or of a matrix-matrix product differs from the exact sum by at most ((1+u)^n - 1) times the sum of the magnitudes of the exact products, plus an absolute term that only underflow causes; it is finite when that sum is well within the range.", "quantifier": "all binary floating-point formats, all lengths, all values", "why_tests_cant": "rounding errors depend on every bit of the operands", "anchors": ["ristra/math/general.h: dot_product", "ristra/math/matrix.h: operator*, matrix_multiply"]}
{"id": "C128", "title": "Symmetries hold to the last bit", "statement": "In floating-point arithmetic the dot product and the distance are symmetric in their arguments, delta_magnitude is the distance, the magnitude is the square root of the dot product and ignores a change of sign, the transpose of a product is the product of the transposes in the other order, and a cross product changes sign when its arguments are swapped, up to the sign of a zero.", "quantifier": "all binary floating-point formats, all lengths, all values, NaN and infinities included", "why_tests_cant": "bitwise equality for all operands", "anchors": ["ristra/math/general.h: dot_product, magnitude, delta_magnitude, cross_product", "ristra/geometry/point.h: distance", "ristra/math/matrix.h: transpose, matrix_multiply"]}
{"id": "C129", "title": "The magnitude of a nonzero vector is an accurate positive number", "statement": "The magnitude of a vector of finite numbers that is not zero is finite, positive, at least as large as every component, and its square is within a relative error of (1+u)^(n+3) of the sum of squares.", "quantifier": "all binary floating-point formats, all lengths, all values", "why_tests_cant": "overflow and underflow of intermediate squares need extreme inputs", "anchors": ["ristra/math/general.h: magnitude, abs"]}
{"id": "C130", "title": "unit returns a vector of length one", "statement": "unit of a vector that is not zero has components between -1 and 1 and length one up to rounding.", "quantifier": "all binary floating-point formats, all lengths, all values", "why_tests_cant": "overflow and underflow of intermediate squares need extreme inputs", "anchors": ["ristra/math/general.h: unit, magnitude", "ristra/math/array.h: operator/"]}
{"id": "C131", "title": "An average lies between the extremes", "statement": "average of numbers lies between the smallest and the largest of them and differs from the exact mean by a bounded rounding error.", "quantifier": "all binary floating-point formats, all lengths, all values", "why_tests_cant": "rounding errors depend on every bit of the operands", "anchors": ["ristra/math/general.h: average", "ristra/math/general_impl.h: average"]}
{"id": "C132", "title": "min, max and sgn on floating-point numbers", "statement": "min and max return the smaller and the larger value elementwise whatever the order of the arguments, and sgn is 0 exactly for zero.", "quantifier": "all binary floating-point formats, all values", "why_tests_cant": "all values, including NaN", "anchors": ["ristra/math/general.h: min, max, sgn"]}
{"id": "C133", "title": "Floating-point areas", "statement": "The area of a polygon and of a triangle is within a bounded rounding error of the exact area, does not change when the points are moved by an exact amount, and does not depend on which point comes first.", "quantifier": "all binary floating-point formats, all lengths, all values", "why_tests_cant": "rounding errors depend on every bit of the operands", "anchors": ["ristra/geometry/area.h: area, area_2d", "ristra/geometry/area_impl.h: area_2d", "ristra/geometry/shapes/triangle.h: triangle<2>::area"]}
{"id": "C134", "title": "The floating-point distance is a metric", "statement": "distance is never negative, symmetric, zero exactly between equal points, satisfies the triangle inequality and is within a bounded rounding error of the exact distance.", "quantifier": "all binary floating-point formats, all lengths, all values", "why_tests_cant": "rounding errors depend on every bit of the operands", "anchors": ["ristra/geometry/point.h: distance", "ristra/math/general.h: delta_magnitude"]}
{"id": "C135", "title": "inverse rejects exactly the singular matrices in floating-point arithmetic", "statement": "inverse fails its assertion exactly when the matrix is singular; otherwise its entries are the rounded quotients by a determinant of bounded rounding error.", "quantifier": "all binary floating-point formats, all values", "why_tests_cant": "rounding errors depend on every bit of the operands", "anchors": ["ristra/math/matrix.h: inverse for 2x2 and 3x3 matrices"]}
{"id": "C136", "title": "Laws of the floating-point matrix product", "statement": "The identity matrix is neutral on both sides, and the product is associative and distributive.", "quantifier": "all binary floating-point formats, all lengths, all values", "why_tests_cant": "rounding errors depend on every bit of the operands", "anchors": ["ristra/math/matrix.h: matrix_multiply, identity_matrix"]}
{"id": "C137", "title": "infinity_norm in floating-point arithmetic", "statement": "infinity_norm is the largest row sum of magnitudes up to a relative error of (1+u)^n, and is NaN when an element is.", "quantifier": "all binary floating-point formats, all lengths, all values", "why_tests_cant": "rounding errors depend on every bit of the operands", "anchors": ["ristra/math/matrix.h: infinity_norm"]}
{"id": "C138", "title": "Floating-point reflections", "statement": "reflect is within a bounded rounding error of the exact reflection, leaves the vectors of the plane unchanged and, for a normal of length one, undoes itself.", "quantifier": "all binary floating-point formats, all lengths, all values", "why_tests_cant": "rounding errors depend on every bit of the operands", "anchors": ["ristra/math/vector.h: reflect"]}
{"id": "C139", "title": "No overflow in the arithmetic of array bounds", "statement": "The strides, the size and the offsets computed by bounds never overflow, and the size check of a view over a container rejects every container that is too small.", "quantifier": "all ranks, extents and indices", "why_tests_cant": "overflow needs extents of billions of elements", "anchors": ["ristra/utils/array_view.h: make_strides, size, linearize", "ristra/utils/array_view.h: array_view(Container&, bounds)"]}
{"id": "C140", "title": "Arithmetic operators of indices", "statement": "index_t operators +, -, *, / and the unary ones work component by component; adding and subtracting, multiplying and dividing undo each other; scaling by an arithmetic value scales the components by it.", "quantifier": "all indices and scalars, integral or floating-point", "why_tests_cant": "each type of scalar is another instance of the template", "anchors": ["ristra/utils/array_view.h: index_t operators"]}
{"id": "C141", "title": "Loop counters are wide enough", "statement": "A loop with the counter type selected for N visits exactly the values from first to last-1 and ends without overflow, for all first <= last <= N.", "quantifier": "all N a size_t can hold", "why_tests_cant": "loops of 2^31 steps over compile-time sizes are not run in tests", "anchors": ["ristra/utils/template_helpers.h: select_counter", "ristra/utils/fixed_vector.h: resize"]}
{"id": "C142", "title": "Conversion to wide strings", "statement": "to_wstring returns the wide characters of the text.", "quantifier": "all texts and all multibyte decodings", "why_tests_cant": "depends on the locale", "anchors": ["ristra/utils/string_utils.h: to_wstring"]}
{"id": "C143", "title": "Normals of lines", "statement": "The normal of two points is perpendicular to the line through them, depends on the line only, and the functions called normal in math, geometry and space vectors agree.", "quantifier": "all points in two and three dimensions", "why_tests_cant": "finitely many points cannot show invariance", "anchors": ["ristra/geometry/normal.h: normal", "ristra/math/general.h: normal", "ristra/geometry/space_vector.h: normal"]}
{"id": "C144", "title": "Shapes with integer coordinates", "statement": "For integer coordinates areas, volumes, midpoints and centroids are the exact ones up to rounding to an integer.", "quantifier": "all integer points, polygons of any length", "why_tests_cant": "the tests use floating-point coordinates only", "anchors": ["ristra/geometry/shapes/triangle.h: area, normal, midpoint", "ristra/geometry/shapes/quadrilateral.h: midpoint", "ristra/geometry/shapes/polygon.h: area, normal, centroid", "ristra/geometry/shapes/tetrahedron.h: volume, midpoint", "ristra/geometry/shapes/hexahedron.h: volume, midpoint", "ristra/geometry/point.h: midpoint, distance, centroid"]}
{"id": "C145", "title": "Averages of integers", "statement": "The average of int values is their exact average truncated, in each of the four versions.", "quantifier": "all nonempty sequences whose sums fit an int", "why_tests_cant": "conversions to unsigned depend on the sign of the sum", "anchors": ["ristra/math/general.h: average"]}
{"id": "C146", "title": "Rounding of volumes", "statement": "In floating-point arithmetic triple products, 3x3 determinants and the volumes of tetrahedra and hexahedra differ from the exact values by at most a known number of relative rounding errors of the sum of magnitudes plus a known multiple of the underflow error; they are finite for coordinates that are not too large, and volumes are never negative.", "quantifier": "all formats and all coordinates whose results are finite", "why_tests_cant": "errors depend on all coordinates", "anchors": ["ristra/math/general.h: triple_product", "ristra/geometry/shapes/tetrahedron.h: volume", "ristra/geometry/shapes/hexahedron.h: volume", "ristra/math/matrix.h: inverse (3x3)"]}
{"id": "C147", "title": "Whole coordinates are computed exactly", "statement": "For whole coordinates whose products fit the significand triple products and determinants are exact, the 3x3 inverse exists exactly for regular matrices, and the volume of a tetrahedron is the exact volume rounded once, zero exactly for points in one plane.", "quantifier": "all whole coordinates within a bound", "why_tests_cant": "exactness must hold for every combination", "anchors": ["ristra/math/general.h: triple_product", "ristra/geometry/shapes/tetrahedron.h: volume", "ristra/geometry/shapes/hexahedron.h: volume", "ristra/math/matrix.h: inverse (3x3)"]}
{"id": "C148", "title": "Volumes do not depend on position and order", "statement": "The computed volume of a tetrahedron or hexahedron stays the same when the shape is moved by an exactly representable displacement, and that of a tetrahedron when its points are renumbered; a tetrahedron with two equal points has no volume.", "quantifier": "all shapes and displacements", "why_tests_cant": "large displacements are not tested", "anchors": ["ristra/math/general.h: triple_product", "ristra/geometry/shapes/tetrahedron.h: volume", "ristra/geometry/shapes/hexahedron.h: volume"]}
{"id": "C149", "title": "Determinants and inverses of every size in floating-point arithmetic", "statement": "The determinant of an n x n matrix has n(n+1)/2+n-2 relative rounding errors of the permanent of magnitudes, plus underflow; it is exact for whole entries of magnitude at most M when n! M^n fits the significand; then the inverse exists exactly for regular matrices, with two relative rounding errors in every entry.", "quantifier": "all sizes, all formats, all entries", "why_tests_cant": "sizes and entries are unbounded", "anchors": ["ristra/math/matrix.h: determinant, cofactor", "ristra/math/matrix.h: inverse"]}
{"id": "C150", "title": "Rounding of midpoints", "statement": "The midpoint of the three, four or eight points of a shape has at most four, four or eight relative rounding errors, and is the common point when all points are the same.", "quantifier": "all formats and all points whose midpoint is finite", "why_tests_cant": "rounding depends on the digits of the coordinates", "anchors": ["ristra/geometry/shapes/triangle.h: midpoint", "ristra/geometry/shapes/quadrilateral.h: midpoint", "ristra/geometry/shapes/tetrahedron.h: midpoint", "ristra/geometry/shapes/hexahedron.h: midpoint"]}
{"id": "C151", "title": "Which matrices are inverted", "statement": "The n x n inverse of a matrix of finite entries is computed whenever the inverse exists and is representable, and rejected otherwise.", "quantifier": "all sizes, all formats, all entries", "why_tests_cant": "overflow and underflow of determinants is not tested", "anchors": ["ristra/math/matrix.h: determinant, cofactor", "ristra/math/matrix.h: inverse"]}
{"id": "C152", "title": "Centroids of polygons in floating-point arithmetic", "statement": "Both versions of the centroid of a polygon return the centroid up to a few rounding errors, agree with each other, and give no finite result for a polygon without area.", "quantifier": "all formats and all polygons", "why_tests_cant": "rounding depends on the digits of all coordinates", "anchors": ["ristra/geometry/centroid.h: centroid, centroid_2d", "ristra/geometry/centroid_impl.h: centroid_2d"]}
{"id": "C153", "title": "Indices of any integer type", "statement": "An index list of any integer types is accepted by a multi-dimensional array exactly if every index is within its dimension, negative values included, and then refers to the element in row-major order.", "quantifier": "all ranks, dimensions and index values", "why_tests_cant": "negative indices are converted to large unsigned values and wrap around in the offset", "anchors": ["ristra/math/multi_array.h: operator(), at, operator[], check_ranges, assert_ranges, element"]}
{"id": "C154", "title": "Construction of arrays and matrices from lists", "statement": "A matrix constructed from a list holds the listed elements, or the single listed value everywhere; every element is defined; a list of another length is rejected. Comparison with a value holds exactly if all elements equal it.", "quantifier": "all sizes, lists and element types", "why_tests_cant": "a short list leaves memory undefined, which often reads as zero", "anchors": ["ristra/math/multi_array.h: constructor from initializer_list, fill, assign, operator==", "ristra/math/array.h: constructors, fill, operator=="]}
{"id": "C155", "title": "Output of arrays, matrices and tuples", "statement": "The words of the printed text are the elements in order, and each printed line of a matrix is a row.", "quantifier": "all sizes and all element texts without blanks", "why_tests_cant": "symmetric test matrices print the same either way", "anchors": ["ristra/math/array.h: operator<<", "ristra/math/multi_array.h: operator<<", "ristra/math/tuple.h: operator<<"]}
{"id": "C156", "title": "Inverses and solutions of linear systems with whole coefficients", "statement": "For matrices of every size whose entries are whole numbers of magnitude at most M with n! M^n within the significand: inversion is rejected exactly if the matrix has no inverse, every entry of the result carries at most two relative rounding errors, and every component of the solution of a linear system at most n + 2 rounding errors relative to the magnitudes of its terms.", "quantifier": "all formats, sizes, matrices and right hand sides", "why_tests_cant": "each size has its own overload, and an error of one entry shows for few matrices", "anchors": ["ristra/math/matrix.h: inverse, ax_plus_y, solve"]}
{"id": "C157", "title": "Norms, trace, double dot product, projections and reflections in floating-point arithmetic", "statement": "The one norm is the infinity norm of the transposed matrix bit for bit; while the sums stay within the range the one norm, two norm, trace, double dot product, projection and reflection matrices are the exact ones up to the rounding errors of their operations; projection and reflection matrices are symmetric bit for bit.", "quantifier": "all formats, sizes and finite matrices", "why_tests_cant": "rounding depends on the digits of all entries", "anchors": ["ristra/math/matrix.h: one_norm, two_norm, trace_matrix, doubledot_product, outer_product, reflection_matrix, projection_matrix"]}
{"id": "C158", "title": "Lua references are plain values", "statement": "Whatever references and states are created, copied, moved and destroyed in whatever order, a live reference pushes the value it was made from; the registry holds exactly the values of live references; the state is closed with its last user and never before a reference is released.", "quantifier": "all sequences of operations and all choices of registry keys", "why_tests_cant": "lifetimes depend on the order of destruction, and a reused key is noticed only later", "anchors": ["ristra/embedded/embed_lua.h: lua_base_t, lua_ref_t, make_lua_ref"]}
{"id": "C159", "title": "Function wrappers keep their function", "statement": "A Lua_Func_Wrapper and its copies call the function the wrapper was made from as long as they live.", "quantifier": "all sequences of operations", "why_tests_cant": "a dangling reference often still works", "anchors": ["ristra/embedded/embed_lua.h: Lua_Func_Wrapper"]}
{"id": "C160", "title": "A dump of the Lua stack shows every value", "statement": "The dump of a stack has one line for each value from the bottom to the top with its position, kind and text, and leaves the stack unchanged.", "quantifier": "all stacks", "why_tests_cant": "only a few stacks are looked at", "anchors": ["ristra/embedded/embed_lua.h: get_row, dump_stack, print_last_row"]}
{"id": "C161", "title": "Names of Lua results tell how they were obtained", "statement": "The name of the result of a call is the name of the function and the types of the arguments; the name of an entry determines the keys that lead to it.", "quantifier": "all calls and all chains of lookups", "why_tests_cant": "names appear in error messages only", "anchors": ["ristra/embedded/embed_lua.h: operator(), operator[], name"]}
{"id": "C162", "title": "Shape functions, their derivatives and physical positions keep their defining properties in floating point", "statement": "In every binary floating point format of at least 8 bits, with every operation rounded to nearest in the order of the code: (a) every shape function of Quad4, Quad8, Quad12, Hex8, Hex20 and Hex32 is exactly 1 at its own node and exactly 0 at every other node, also where a node has the rounded coordinate 1/3; (b) the derivatives of Quad4, Quad8, Hex8 and Hex20 at the nodes are exact; (c) physical_position maps every node exactly to its vertex; (d) at every point of the reference element shape functions and derivatives are finite and within 3 to 128 units of roundoff (a constant per element and function) of their exact values, so that they add up to 1 within n such errors; (e) physical_position does not overflow and has an error of at most u(P M + 1), with M a bound on the vertices and P a constant per element; (f) basis computes the same numbers as physical_position uses.", "quantifier": "for all floating point formats with 8 or more bits, all six elements, all functions, nodes, points of the reference element, vertices, and contents of the output arrays before the call", "why_tests_cant": "The exactness at nodes with coordinate 1/3 depends on how two roundings cancel in each precision, and the error bounds must hold at every one of the 2^128 or more points; tests sample a few points in one precision.", "anchors": ["ristra/elements/elements.cc:878-936", "ristra/elements/elements.cc:1006-1054", "ristra/elements/elements.cc:1191-1244", "ristra/elements/elements.cc:1407-1437", "ristra/elements/elements.cc:1556-1620", "ristra/elements/elements.cc:1871-1941", "ristra/elements/elements.cc:940-2127"]}
{"id": "C163", "title": "Lagrange polynomials of any order, QuadN and HexN keep their defining properties in floating point", "statement": "In every binary floating point format, for every order N-1 and every set of N nodes that are no nearer to each other than 2^-a and no farther than 2, with (a+2) N + 4 <= emax and 64 N <= 2^prec: (a) the polynomials lagrange_1D computes are exactly 1 at their own node and exactly 0 at the other nodes, and so are the tensor product functions of QuadN and HexN at the nodes the element stores; (b) at every point that is on a node or at least 2^-a from it (and at most 2) the computed values are finite with a relative error of at most 2(4N+1)u, so they add up to 1 within that times the Lebesgue function of the nodes; (c) the computed derivatives are finite and within 2(5N+1)u times the sum of the magnitudes of the products the code adds, divided by the denominator, plus half the smallest number; (d) the basis functions of QuadN and HexN have relative errors of at most 2(8N+3)u and 2(12N+5)u when the products stay in the range.", "quantifier": "for all floating point formats, orders, node sets and points as stated, and all contents of the output vectors before the call", "why_tests_cant": "Exactness and relative accuracy must hold for every order, node set, point and precision; tests take one order and one set of nodes in double precision.", "anchors": ["ristra/elements/elements.cc:2180-2224", "ristra/elements/elements.cc:2292-2391", "ristra/elements/elements.cc:2443-2487", "ristra/elements/elements.cc:2574-2693"]}
{"id": "C164", "title": "Jacobian matrices, determinants and inverses in floating point", "statement": "In every binary floating point format: (a) jacobian (dimensions 2 and 3) and jacobian4D store in every entry of the matrix the sum over the nodes of coordinate times partial, in that order, within ((1+u)^n - 1) times the sum of the magnitudes plus underflow; with the partials of the elements the entry is within u(C M + 1) of the derivative of the position, C a constant of the element and M a bound of the coordinates; (b) the determinant returned is finite and near the determinant of the matrix: within ((1+u)^8 - 1) (4D: (1+u)^26 - 1) times the sum of the magnitudes of its products plus underflow, and exact for whole entries whose products fit; it depends on nothing but the matrix; (c) an entry of the 2D inverse has relative error at most u + 2 (1+u) delta, delta the relative error of the determinant, and is correctly rounded for whole entries whose products fit.", "quantifier": "for all floating point formats, numbers of nodes, coordinates, partials and matrices whose entries are finite numbers of at most a magnitude M such that the products stay in the range, and all contents of the matrix before the call", "why_tests_cant": "Rounding errors must be bounded for every matrix and precision and every content the output matrix had before the call; tests compute a few determinants in double precision with a fresh matrix.", "anchors": ["ristra/elements/elements.cc:527-562", "ristra/elements/elements.cc:565-616", "ristra/elements/elements.cc:619-630"]}
{"id": "C165", "title": "Type traits say what their names say, and select the right overloads", "statement": "For every set of classes: (a) are_type_t is true exactly if all decayed types are the decayed target; (b) are_integral, used on arguments taken by value, admits an index or an ordering exactly if there are as many arguments as the rank and each has an integer type; (c) is_iterator is true exactly for pointers and for classes with the five nested types; (d) is_callable is true exactly for things that can be called; (e) is_container is true exactly for containers, and a constructor of a view enabled by is_minimal_container compiles; (f) has_subscript_operator is true exactly if the type has a subscript operator; (g) extract_extents yields the extents of an array type; (h) special_decay turns a reference wrapper into a reference and decays every other type; (i) type_as_string names a type; (j) average of two arguments of the same decayed type compiles, and takes the range between two iterators and the mean of two values.", "quantifier": "for all types, all environments of classes (nested names, members, overloads) and all argument expressions of any value category and qualification", "why_tests_cant": "The claims are about all types and all argument categories; the tests instantiate each trait with a handful of types and never instantiate extract_extents, special_decay or average with mixed constness.", "anchors": ["ristra/utils/type_traits.h:28-226", "ristra/utils/type_traits_impl.h:24-112", "ristra/utils/array_view.h:165-172", "ristra/utils/array_view.h:2136-2145", "ristra/math/general.h:49-108"]}
{"id": "C166", "title": "Input sources: errors, lengths and ownership", "statement": "(a) get_value, its specialisation for functions, get_size and get_lua_result_raw look up a key in the same place: one raises exactly if all do, and a value is found exactly if the table of the key is loaded, is a Lua table and has a non-nil entry; (b) the exception that leaves get_value, get_size and get_table is the one that was raised (std::out_of_range for a missing table, a runtime error for something that is not a table), so callers can handle it and read its message; (c) get_size is the length Lua gives and throws if the key is not found; (d) get_table returns the loaded table; (e) an engine owns its source: for every sequence of registrations, replacements, accesses and destructions each source is deleted exactly once, when no engine has it any more, and never used afterwards; (f) asking for a source that was not registered throws.", "quantifier": "for all sources (any tables, keys, aliases and nesting of values), all keys, and all finite sequences of allocating, registering, getting and destroying over any number of engines and sources", "why_tests_cant": "Lifetimes over all sequences of operations and errors over all states of the maps cannot be enumerated; the tests only look up keys that exist and register one source once.", "anchors": ["ristra/initialization/input_source.h:241-334", "ristra/initialization/input_source.h:378-400", "ristra/initialization/input_engine.h:186-231", "ristra/embedded/embed_lua.h:847-867", "ristra/assertions/errors.h:23-40"]}
{"id": "C167", "title": "Iterators over views, and views as a whole", "statement": "(a) from begin() to end() an iterator over a strided, contiguous or static view meets the element of every index exactly once in row-major order, and from rbegin() to rend() in the opposite order; (b) sums, differences, subscripts, == and < of iterators agree with the positions; (c) an iterator stays usable as long as the storage exists, and iterators of equal views over the same storage can be compared; (d) constant iterators meet the same elements; (e) flattening a view to rank one keeps its elements and their order; (f) default-constructed and cleared views have no elements; (g) conversions between static, contiguous and strided views keep every element; (h) <, <=, >, >= of views are the lexicographic order of the elements, a total order if the elements have one.", "quantifier": "for all ranks, all positive extents, all strides, all positions, all objects and iterators, with and without assertions", "why_tests_cant": "All ranks, extents, strides and pairs of positions are infinitely many; the tests iterate over two small views and never use comparisons of strided iterators, constant iterators of static views or flattening of sections.", "anchors": ["ristra/utils/array_view.h:1572-1973", "ristra/utils/array_view.h:2133-2146", "ristra/utils/array_view.h:2354-2480", "ristra/utils/array_view.h:3107-3107", "ristra/utils/array_view.h:3388-3439"]}
{"id": "C168", "title": "Every VTK object is destroyed exactly when its last holder lets go", "statement": "In every program over the VTK wrappers (UnstructuredGrid, the free functions for meshes and data, the Catalyst adaptor), no VTK object is touched after its destruction, each has as many references as there are pointers that will give one up, and once no pointer to any object is left all are destroyed.", "quantifier": "every sequence of calls that follows only pointers that are set, any number of objects and variables", "why_tests_cant": "all histories; leaks are silent, and use after destruction need not crash", "anchors": ["ristra/io/catalyst/vtk/unstructuredGrid.h:59-64", "ristra/io/catalyst/vtk/unstructuredGrid.h:111-154", "ristra/io/catalyst/vtk/unstructuredGrid.h:240-244", "ristra/io/catalyst/vtk/unstructuredGrid.h:276-311", "ristra/io/catalyst/vtk/unstructuredGrid.h:315-426", "ristra/io/catalyst/vtk/unstructuredGrid.h:445-494", "ristra/io/catalyst/vtk/unstructuredGrid.h:500-619", "ristra/io/catalyst/flecsale_unstructuredGrid.h:92-117", "ristra/io/catalyst/flecsale_unstructuredGrid.h:181-189", "ristra/io/catalyst/flecsale_unstructuredGrid.h:247-379", "ristra/io/catalyst/adaptor.h:49-78", "ristra/io/catalyst/adaptor.h:134-161"]}
{"id": "C169", "title": "Element and quadrature routines stay inside the vectors they are given", "statement": "Given vectors with one entry for each node, point and direction of the element (and a dim by dim matrix for the Jacobian), the quadrature, Jacobian, inverse, Lagrange and arbitrary-order tensor routines access only entries that exist and leave there exactly the values of the function models; which sizes are enough is known exactly for each routine.", "quantifier": "every order, dimension and size of every vector, all real entries", "why_tests_cant": "all sizes and orders; an access past the end of a vector need not show", "anchors": ["ristra/elements/elements.cc:222-838", "ristra/elements/elements.cc:2162-2693"]}
{"id": "C170", "title": "Fixed-order element routines stay inside the vectors they are given", "statement": "Basis, partial derivative and physical_position routines of Quad_4_2D, Quad_8_2D, Quad_12_2D, Hex8, Hex20, Hex32 and Tess16 read and write only entries that exist exactly when the point, the result, x_point and the vertices have the sizes listed for the routine; these never exceed the dimension and the number of nodes. They then leave the values of the shape function models in the result, never change its size and never touch entries past the nodes or coordinates of the element.", "quantifier": "all sizes of every vector, all real entries, any previous contents of the local array", "why_tests_cant": "all sizes; an access past the end of a vector need not show", "anchors": ["ristra/elements/elements.cc:840-2127", "ristra/elements/elements.cc:2695-2880"]}
{"id": "C171", "title": "Quadrature rules computed in double precision", "statement": "With every operation rounded to double, the Gauss rules of 1 to 8 points integrate every polynomial of degree up to 2n-1 within 3*2^-53 times the sum of the absolute values of its coefficients, and the Lobatto rules of 1 to 8 points every polynomial of degree up to 2n-3 (1 for n = 1) within 2^-53 times that sum. Points are finite, in [-1,1], pairwise different and exactly symmetric, weights positive and exactly symmetric, the ends of a Lobatto rule are exactly -1 and 1, and every tabulated entry is the unique double nearest to the decimal number written. The tensor rules hold exact copies of these points and weights, and their total weights integrate products of such polynomials within 17*2^-53 (2D) and 53*2^-53 (3D) times the product of the norms.", "quantifier": "all orders, all polynomials of the degree, all points of the tensor rules", "why_tests_cant": "all polynomials; rounding errors of the tables and of the products of weights are not visible in single integrals", "anchors": ["ristra/elements/elements.cc:10-524"]}
{"id": "C172", "title": "Operand types, overflow and schemes of the atomic operations", "statement": "For a variable of any integer type and a right-hand side of any other, each of += -= *= leaves the exact result whenever the variable can hold it and otherwise the result modulo 2^bits; & | ^ act on the bits of the variable; / and % divide; min and max leave the smaller and larger number; the type of a shift count does not matter. All schemes leave the same value.", "quantifier": "all pairs of integer types of 8 to 64 bits, all values, all operations; whole and fractional doubles on the right", "why_tests_cant": "all values of all pairs of types; undefined overflow and wrong conversions show only at particular values", "anchors": ["ristra/atomics/src/atomics.h:984-1012", "ristra/atomics/src/atomics.h:1180-1303", "ristra/atomics/src/atomics-macro-class.h", "ristra/atomics/src/atomics-macro-class-prepost.h"]}
{"id": "C173", "title": "Space vectors of floating-point numbers and of integers", "statement": "In floating point the functions of space vectors agree to the last bit with those of math; cross_magnitude ignores the order and the sense of its arguments, is never negative, is within a stated rounding error of the area of the parallelogram, exactly zero for parallel vectors and only for them, and does not depend on the dimension the vectors are stored in. For integer elements of any type magnitude and distance are the exact ones rounded down and cross_magnitude is exact.", "quantifier": "all binary formats, all vectors of numbers of the format; all integer types of 8 to 64 bits, vectors of any length and value", "why_tests_cant": "rounding, underflow and conversion through double show only at particular values", "anchors": ["ristra/geometry/space_vector.h:59-153", "ristra/geometry/point.h:36-46"]}
{"id": "C174", "title": "Threaded unit tests and example programs of atomics", "statement": "Whatever the schedule, when all threads of a unit-threads test have finished the variable holds exactly the serial result, the test data never runs into undefined behaviour, and the comparison accepts equal results. The example programs print nthreads*niters, 0, 0, 0 and the bounds of the loops.", "quantifier": "all schedules, all value types and operations, all schemes a test tries, all numbers of threads and iterations, all initial values; for the check all floats and doubles", "why_tests_cant": "these are the tests: one run sees one schedule, and undefined behaviour in the test itself goes unnoticed", "anchors": ["ristra/atomics/test/unit-threads.h:73-291", "ristra/atomics/test/unit-threads-mul.cc:13-28", "ristra/atomics/test/unit-threads-lshift.cc:13-28", "ristra/atomics/example/multithreaded-add.cc:44-84", "ristra/atomics/example/multithreaded-add-sub.cc:42-87", "ristra/atomics/example/multithreaded-add-sub-inc-dec.cc:17-46", "ristra/atomics/example/multithreaded-mul-div-shift.cc:17-34", "ristra/atomics/example/multithreaded-min-max.cc:13-48"]}
{"id": "C175", "title": "Single-threaded unit tests and correct-operators of atomics", "statement": "In one thread, whatever mixture of schemes is used, every operation returns and leaves exactly what the language computes. Hence every assertion of the unit-<operation> tests for int and unsigned, and of correct-operators.cc for short, int, long and long long, holds, and none of their operations is undefined; the values are the ones listed.", "quantifier": "all programs of one thread, all value types and operations, all schemes, all runs (including spurious failures of the weak exchange); all values 0..2^20 and right sides 0..100 for the single operations", "why_tests_cant": "the tests try a few values and the schemes one at a time, and never a mixture of schemes", "anchors": ["ristra/atomics/test/unit-add.cc:15-31", "ristra/atomics/test/unit-mul.cc:15-31", "ristra/atomics/test/unit-div.cc:15-33", "ristra/atomics/test/unit-mod.cc:15-33", "ristra/atomics/test/unit-rshift.cc:15-36", "ristra/atomics/test/unit-preinc.cc:15-43", "ristra/atomics/test/unit-postinc.cc:15-33", "ristra/atomics/example/correct-operators.cc:17-84"]}
{"id": "C176", "title": "Mixed-type function objects and arrays made from tuples", "statement": "plus, minus and multiplies of two integers of different types return the exact result, in the common type, wherever that type holds it; otherwise the call is undefined if that type is signed and the result is taken modulo 2^n if it is unsigned. divides returns the quotient rounded towards zero and is undefined exactly for a zero divisor and the least number divided by -1. to_array compiles exactly when the first element's type holds every value of the other types, and then the array has the values of the tuple in order.", "quantifier": "all pairs of integer types, all operands, all tuples of integers", "why_tests_cant": "neither header has a test; mixed types give 64 pairs, and the wrong ones compile silently", "anchors": ["ristra/utils/functional.h:24-53", "ristra/utils/tuple_to_array.h:17-42"]}
{"id": "C177", "title": "The user-defined class of the atomics examples", "statement": "Every compound assignment of foo works on each of its four bytes as on a single unsigned char and is undefined exactly when one of them is; ++ and -- step each byte modulo 256, the postfix forms returning the old value. min and max leave a foo that is not greater (less) than the bar they were given. Threads adding to an atomic<foo> lose no update in any byte, whatever the schedule, and the punned schemes see each foo as exactly one 32-bit integer.", "quantifier": "all foos, bars and operators; all schedules, numbers of threads and additions; all schemes that take a user-defined class", "why_tests_cant": "the examples only check that the operations compile; nothing looks at their values", "anchors": ["ristra/atomics/example/foobar.h:19-101", "ristra/atomics/src/atomics.h:995-1012", "ristra/atomics/src/atomics-macro-class-prepost.h:82-101"]}

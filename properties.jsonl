{"id": "C01", "title": "2-D discrete complex is exact-consistent: rot(grad)=0 and div(curl)=0", "statement": "For a 2-D mesh space of any polynomial degree (px,py) the incidence matrix of the 1-form space times the incidence matrix of the 0-form space, as returned for the same orientation, is the zero matrix; this holds for the inner complex (grad then rot) and the outer complex (curl then div).", "quantifier": "all degrees px,py >= 1, both orientations, every 0-cochain", "why_tests_cant": "Tests multiply the matrices for a handful of degrees; the identity depends on index arithmetic of the local numbering that changes with every (px,py).", "anchors": ["msepy/space/incidence_matrix/Lambda.py: MsePyIncidenceMatrixLambda._m2_n2_k0_inner/_outer/_m2_n2_k1_inner/_outer", "msepy/space/local_numbering/Lambda.py"]}
{"id": "C02", "title": "3-D discrete complex: curl(grad)=0 and div(curl)=0", "statement": "For a 3-D mesh space of any degree (px,py,pz) the product of consecutive incidence matrices (0->1->2 and 1->2->3) is the zero matrix.", "quantifier": "all degrees px,py,pz >= 1, every 0-cochain and every 1-cochain", "why_tests_cant": "Unbounded family of matrices; a sign or offset slip in one of the nine blocks may cancel for small or equal degrees.", "anchors": ["msepy/space/incidence_matrix/Lambda.py: _m3_n3_k0/_m3_n3_k1/_m3_n3_k2"]}
{"id": "C03", "title": "Incidence matrices realise the discrete Stokes theorem", "statement": "Applying the incidence matrix returned for a k-form space to a k-cochain gives, at every (k+1)-cell, exactly the signed sum of the cochain over the boundary of this cell (difference of end values on edges, circulation around faces, flux out of volumes), with the orientation convention of the library.", "quantifier": "all degrees, all cells, all cochains (1-D, 2-D inner/outer, 3-D)", "why_tests_cant": "Needs every cell of every degree; example-based tests only look at global norms for chosen degrees.", "anchors": ["msepy/space/incidence_matrix/Lambda.py", "msepy/space/local_numbering/Lambda.py"]}
{"id": "C04", "title": "Local numberings are bijections onto 0..N-1", "statement": "For every degree the local numbering of a k-form space enumerates each basis function of each component exactly once, with the numbers 0..N-1 where N is the reported number of local dofs, components one after the other, and N equals the sum of the reported component sizes.", "quantifier": "all degrees; k = 0..n for n = 1,2,3 and both orientations", "why_tests_cant": "It is a counting statement over unbounded index ranges.", "anchors": ["msepy/space/local_numbering/Lambda.py", "msepy/space/num_local_dofs/Lambda.py", "msepy/space/num_local_dof_components/Lambda.py"]}
{"id": "C05", "title": "Element number <-> (region, local indices) round trip", "statement": "In a structured multi-region mesh, the element number stored at local indices I of region R is translated back to exactly (R, I), every number 0..N-1 is used once, and an out-of-range number is rejected.", "quantifier": "all numbers of regions, all (non-zero) element layouts, all element numbers, dimensions 1-3", "why_tests_cant": "Region offsets accumulate over arbitrary layouts; off-by-one at region borders shows only for particular layouts.", "anchors": ["msepy/mesh/elements/main.py: _generate_element_numbering_from_layout, _find_region_and_local_indices_of_element"]}
{"id": "C06", "title": "Element neighbour map is symmetric", "statement": "If element i reports element j as neighbour through side s then j reports i through the opposite side; boundary sides report -1.", "quantifier": "all structured region maps that pass the region map check and all conforming layouts", "why_tests_cant": "Quantifies over all region connectivities and layouts.", "anchors": ["msepy/mesh/elements/main.py: _generate_element_map_for_structured_regions", "msepy/manifold/regions/main.py: _check_map"]}
{"id": "C07", "title": "Index mapping split and merge are inverse", "statement": "Splitting an element-indexed sequence into the groups of elements with equal metric and merging the groups gives back the original element-wise data, for every grouping of elements.", "quantifier": "all element-to-group maps and all data", "why_tests_cant": "Arbitrary groupings; data-independent permutation statement.", "anchors": ["msepy/mesh/elements/main.py: MsePyMeshElementsIndexMapping.split/merge/distribute_to_all_elements"]}
{"id": "C08", "title": "1-D continuity: gathering matrix of 0-forms on a line", "statement": "Two (element, local dof) positions get the same global number iff they are the same position or the shared end points of neighbouring elements; the numbers used are exactly 0..M-1. This holds for every consistent chain-like element map (open or periodic with at least two elements), and fails for a single periodic element, whose two ends are numbered -1.", "quantifier": "all numbers of elements >= 1, all degrees, open and periodic maps", "why_tests_cant": "Equality pattern over unboundedly many elements; corner case with a single periodic element.", "anchors": ["msepy/space/gathering_matrix/Lambda.py: _m1_n1_k0"]}
{"id": "C09", "title": "2-D continuity: gathering matrices of edge dofs (inner and outer 1-forms)", "statement": "Two (element, local dof) positions of a 1-form space get the same global number iff they are the same position or lie at the same place on an interface shared by two neighbouring elements, and the numbers used are exactly 0..M-1, whenever no element is its own neighbour.", "quantifier": "all symmetric element maps, all degrees, both orientations", "why_tests_cant": "Equality pattern over all meshes and degrees.", "anchors": ["msepy/space/gathering_matrix/Lambda.py: _m2_n2_k1_inner/_m2_n2_k1_outer"]}
{"id": "C10", "title": "3-D face dofs on meshes with boundary", "statement": "The gathering matrix of the 3-D 2-form space gives distinct numbers to dofs on distinct faces. (Refuted: on any boundary side the code takes the 'neighbour copy' branch because it tests for a string while the element map stores the integer -1, so boundary dofs are aliased.)", "quantifier": "all 3-D structured element maps including boundaries", "why_tests_cant": "Only visible for meshes with boundary faces at 'minus' sides; a numerical test of the assembled system still runs.", "anchors": ["msepy/space/gathering_matrix/Lambda.py: _m3_n3_k2", "msepy/mesh/elements/main.py: map"]}
{"id": "C11", "title": "Unstructured node/edge/interior numbering identifies exactly the shared geometry (2-D 0-forms)", "statement": "Numbering the 0-form dofs of a quadrilateral mesh gives two positions the same global number iff they denote the same mesh vertex, the same point on the same mesh edge (whichever direction the elements traverse the edge), or the same interior position of the same element; all numbers 0..M-1 are used.", "quantifier": "all finite element lists with arbitrary vertex labels, all degrees", "why_tests_cant": "Depends on the visiting order and on the first-come pools; arbitrary meshes.", "anchors": ["msehtt/static/space/gathering_matrix/Lambda/GM_m2n2k0.py: gathering_matrix_Lambda__m2n2k0, ___gm220_msepy_quadrilateral___"]}
{"id": "C12", "title": "Unstructured edge numbering for 2-D 1-forms identifies exactly the shared edges", "statement": "Numbering the 1-form dofs of a quadrilateral mesh gives two edge positions the same global number iff they lie at the same place of the same mesh edge, regardless of visiting order and traversal direction; all numbers 0..M-1 are used.", "quantifier": "all finite element lists with arbitrary vertex labels, all degrees, both orientations", "why_tests_cant": "Arbitrary meshes and visiting orders.", "anchors": ["msehtt/static/space/gathering_matrix/Lambda/GM_m2n2k1.py"]}
{"id": "C13", "title": "Distinct mesh edges with the same two end vertices", "statement": "Distinct mesh edges receive distinct dofs. (Refuted when two different edges have the same pair of end vertices, as on a periodic mesh with two elements in one direction: the pool is keyed by the vertex pair and merges them, reversed.)", "quantifier": "all vertex-labelled element lists", "why_tests_cant": "Only visible on two-element periodic directions.", "anchors": ["msehtt/static/space/gathering_matrix/Lambda/GM_m2n2k0.py", "msehtt/static/space/gathering_matrix/Lambda/GM_m2n2k1.py"]}
{"id": "C14", "title": "Chaining gathering matrices is a bijection of the disjoint union of dofs", "statement": "Chaining several gathering matrices over the same elements yields a gathering matrix in which (i, dof) of distinct composition members or distinct dofs get distinct numbers, equal (i, dof) get equal numbers, and the used numbers are exactly 0..sum of dofs - 1.", "quantifier": "all lists of gathering matrices over any elements", "why_tests_cant": "First-seen numbering over arbitrary element-local lists.", "anchors": ["msehtt/tools/gathering_matrix.py: ___msehtt_gm_chaining_method_0___, _check_gm_and_gms"]}
{"id": "C15", "title": "Split and merge of chained vectors are inverse", "statement": "Splitting a vector living on a chained gathering matrix into its composition parts and merging the parts returns the same vector and vice versa; element-wise split data are the parts of the element-wise data.", "quantifier": "all chained gathering matrices and all data", "why_tests_cant": "Offsets depend on all compositions and elements.", "anchors": ["msehtt/tools/gathering_matrix.py: split/merge", "msepy/tools/gathering_matrix.py"]}
{"id": "C16", "title": "Locating global dofs is sound and complete", "statement": "Asking a gathering matrix for the locations of global dofs returns for each requested dof exactly the set of (element, local dof) positions holding it; repeated queries (whatever was asked before) return the same answer.", "quantifier": "all gathering matrices, all query histories", "why_tests_cant": "History dependence through caches.", "anchors": ["msehtt/tools/gathering_matrix.py: find_rank_locations_of_global_dofs", "msepy/tools/gathering_matrix.py: _find_elements_and_local_indices_of_dofs"]}
{"id": "C17", "title": "Translating a dof of the i-th unknown into the chained numbering", "statement": "find_global_numbering_of_ith_composition_global_dof(i, dof) returns the chained number of this dof. (Refuted: the (rank, element) pair returned by find_representative_location is used as (element, local dof).)", "quantifier": "all chained gathering matrices and dofs", "why_tests_cant": "Coincidentally right for dof 0 of element 0.", "anchors": ["msehtt/tools/gathering_matrix.py: find_representative_location, find_global_numbering_of_ith_composition_global_dof", "msehtt/tools/matrix/static/local.py: new_EndZeroRowCol_with_a_one_for_global_dof"]}
{"id": "C18", "title": "Chaining method is respected regardless of history", "statement": "Chaining the same gathering matrices with a chosen method gives the numbering of this method whatever chainings happened before. (Refuted: the cache key does not contain the method.)", "quantifier": "all histories of chaining calls", "why_tests_cant": "Only visible for particular call orders.", "anchors": ["msepy/tools/gathering_matrix.py: RegularGatheringMatrix.__init__, _cgm_cache"]}
{"id": "C19", "title": "Matrix assembly is the sum of scattered element contributions over all ranks", "statement": "The gathered assembled matrix has at (i,j) the sum over all ranks, elements and local positions (a,b) numbered (i,j) of the element matrix entry (a,b); hence y=Ax equals the assembly of element-wise products with the gathered-out x, independently of how elements are distributed over ranks.", "quantifier": "all element matrices, gathering matrices, partitions of elements over ranks, vectors x", "why_tests_cant": "Universal over meshes and partitions (schedules).", "anchors": ["msehtt/tools/matrix/static/local.py: assemble", "msehtt/tools/matrix/static/global_.py: gather"]}
{"id": "C20", "title": "Vector assembly accumulates every contribution", "statement": "Assembling a local vector in 'sum' mode gives at i the sum of all element entries numbered i, consistently with matrix assembly. It holds when no element repeats a global dof; it is refuted otherwise, because the indexed in-place addition keeps only the last of the repeated contributions of one element.", "quantifier": "all gathering matrices and local vectors", "why_tests_cant": "The failing inputs (an element that repeats a dof: periodic direction with one element) are not in tests.", "anchors": ["msehtt/tools/vector/static/local.py: assemble"]}
{"id": "C21", "title": "identify_row replaces exactly one global equation by x_i = rhs_i", "statement": "After customising any set of rows in any order, the assembled row of every identified dof is the unit row, of every zeroed dof the zero row (the last customisation wins), and every other assembled row is unchanged.", "quantifier": "all matrices with equal row and column numbering, all rank partitions, all sequences of customisations", "why_tests_cant": "Order and overlap of customisations and distribution over ranks.", "anchors": ["msehtt/tools/matrix/static/local.py: MseHttStaticLocalMatrixCustomize.identify_row/zero_row(s)"]}
{"id": "C22", "title": "Essential boundary conditions are imposed exactly", "statement": "After set_dof / set_value for a set of dofs, any solution of the assembled system has exactly the prescribed value at each of these dofs and satisfies all the other original equations.", "quantifier": "all systems, all dof sets and values, all rank partitions", "why_tests_cant": "Universal over systems and customisation histories.", "anchors": ["msehtt/tools/linear_system/static/local/customize.py: set_dof", "msehtt/tools/vector/static/local.py: set_value"]}
{"id": "C23", "title": "Derived matrices see the customisation of their operand", "statement": "Negating, transposing, scaling or summing a customised local matrix gives, for each element, the operation applied to the customised element matrix. (Refuted when two elements share a cache key: the derived matrix reuses the operand's cache key and returns another element's data.)", "quantifier": "all query orders and customisations", "why_tests_cant": "Depends on the query history of elements.", "anchors": ["msehtt/tools/matrix/static/local.py: __getitem__, __neg__, T, __rmul__, __add__, __matmul__"]}
{"id": "C24", "title": "Assembling has no side effect on the local matrices", "statement": "Assembling a matrix with one threshold does not change what a later assembly with another threshold (or none) returns. (Refuted: small entries are zeroed in place in the cached local data.)", "quantifier": "all histories of assembly calls", "why_tests_cant": "Only visible for sequences of calls.", "anchors": ["msehtt/tools/matrix/static/local.py: assemble"]}
{"id": "C25", "title": "Block assembly equals assembly of blocks", "statement": "Assembling the block matrix bmat(A) on the chained numbering gives at the chained numbers of (I,i),(J,j) exactly the entry (i,j) of the assembled block A[I][J]; likewise for concatenated vectors.", "quantifier": "all block shapes, block matrices with None blocks, meshes", "why_tests_cant": "Universal over block structures.", "anchors": ["msehtt/tools/matrix/static/local.py: bmat", "msehtt/tools/vector/static/local.py: concatenate"]}
{"id": "C26", "title": "Jacobi preconditioning preserves the solution set", "statement": "The system scaled by the 'Jacobian' preconditioner has exactly the solutions of the original system.", "quantifier": "all square systems including ones with zero, negative or tiny diagonals", "why_tests_cant": "Universal over matrices.", "anchors": ["msehtt/tools/matrix/static/global_.py: diagonal", "msehtt/tools/linear_system/static/local/main.py: assemble"]}
{"id": "C27", "title": "Detected essential rows are unit rows of the gathered matrix", "statement": "Every row reported as essential by a distributed matrix is a unit row of the gathered (summed over ranks) matrix. (Refuted: other ranks' entries of the row are not looked at when they are not themselves a unit row.)", "quantifier": "all distributed matrices and numbers of ranks", "why_tests_cant": "Depends on the distribution over ranks.", "anchors": ["msehtt/tools/matrix/static/global_.py: ___find_essential_rows___"]}
{"id": "C28", "title": "Iterator remembers exactly the computed inputs", "statement": "Whatever sequence of inputs has been computed, an input is reported as already computed iff it was recorded before; compressing the record into ranges never adds or loses an input.", "quantifier": "all histories of recorded inputs", "why_tests_cant": "Compression depends on order and gaps of the whole history.", "anchors": ["tools/iterator/main.py: _update_computed_inputs, _compress_computed_input_list, _check_input_cache"]}
{"id": "C29", "title": "A resumed iteration equals the uninterrupted one", "statement": "For a deterministic solver, running the iterator, stopping after any number of steps at a point where the cache was written, and rerunning from the cache yields the same results and the same final state as an uninterrupted run.", "quantifier": "all solvers, all stopping points, any number of restarts", "why_tests_cant": "Universal over crash points.", "anchors": ["tools/iterator/main.py: run, ___write_to_cache___, _read"]}
{"id": "C30", "title": "Distinct inputs have distinct cache keys", "statement": "Two different numeric inputs are never confused by the iterator cache. (Refuted: non-integer inputs are keyed by five decimals.)", "quantifier": "all pairs of inputs", "why_tests_cant": "Needs inputs closer than 1e-5.", "anchors": ["tools/iterator/main.py: _make_inputs_key"]}
{"id": "C31", "title": "ndarray-keyed cache returns only what was stored for a matching key and stays bounded", "statement": "For any history of lookups and insertions a hit returns a value that was inserted under the same check string with an allclose key; the number of entries never exceeds 2*maximum+1 and the newest entries survive eviction.", "quantifier": "all histories, all maxima", "why_tests_cant": "History dependent eviction and give-up logic.", "anchors": ["tools/miscellaneous/ndarray_cache.py: ndarray_key_comparer, add_to_ndarray_cache"]}
{"id": "C32", "title": "ndarray-keyed cache does not confuse different integer keys", "statement": "A lookup with an integer array never returns the value stored for a different integer array. (Refuted above 1e5 by the relative tolerance; proved below.)", "quantifier": "all integer arrays", "why_tests_cant": "Needs more than 1e5 dofs.", "anchors": ["tools/miscellaneous/ndarray_cache.py", "msepy/tools/gathering_matrix.py: _find_elements_and_local_indices_of_dofs"]}
{"id": "C33", "title": "Memoisation is transparent", "statement": "A memoised pure function returns for every call in every call history what the undecorated function would return, provided the key rendering separates the argument lists in use; memoised properties evaluate once.", "quantifier": "all call histories", "why_tests_cant": "History dependent.", "anchors": ["tools/decorators/memoize/memoize_1.py ... memoize_5.py"]}
{"id": "C34", "title": "Frozen objects accept no new attributes", "statement": "After freezing, assigning an attribute the object does not have raises and leaves the object unchanged, assigning an existing one works, and melting lifts the restriction, in any sequence of operations.", "quantifier": "all operation histories", "why_tests_cant": "History dependent.", "anchors": ["tools/frozen.py: Frozen"]}
{"id": "C35", "title": "Multigrid cycles are closed walks on valid levels", "statement": "The V, N, W-type level schedules generated for a number of levels start and end on the finest level, move one level at a time, stay within the levels, and visit the coarsest level.", "quantifier": "all numbers of levels and numbers of cycles", "why_tests_cant": "Unbounded schedules.", "anchors": ["tools/miscellaneous/multigrid_scheme.py: MultiGridScheme"]}
{"id": "C36", "title": "Restriction / prolongation pairs of a multigrid schedule are properly nested", "statement": "The pairing of a schedule assigns to each prolongation step the matching earlier restriction between the same two levels; pairs are properly nested and no step belongs to two pairs.", "quantifier": "all schedules", "why_tests_cant": "Bracket matching over arbitrary words.", "anchors": ["tools/miscellaneous/multigrid_scheme.py: pairs"]}
{"id": "C37", "title": "Newton-Raphson terminates and reports truthfully", "statement": "The nonlinear iteration performs at most max(1, maxiter) linear solves, the returned solution is the initial guess plus all computed increments, 'reach absolute tol' is reported iff the last increment norm is below atol, and a forced maxiter performs exactly that many iterations.", "quantifier": "all residual sequences, atol, maxiter", "why_tests_cant": "Universal over residual histories.", "anchors": ["msehtt/tools/nonlinear_system/static/solve/Newton_Raphson.py: __call__, _check_stop_criterion_"]}
{"id": "C38", "title": "Constant time sequence is an exact arithmetic grid", "statement": "t[k] = t0 + k dt for every valid k, t[0] = t0, t[k_max] = t_max, consecutive instants differ by dt, and k outside the margin is rejected.", "quantifier": "all t0 < t_max, n, factor, k (exact arithmetic)", "why_tests_cant": "Universal over parameters.", "anchors": ["src/time_sequence.py: ConstantTimeSequence"]}
{"id": "C39", "title": "Function time sequence is monotone and history independent", "statement": "Whatever instants have been asked before, t[k] returns the k-th instant defined by the step function; the instants strictly increase.", "quantifier": "all positive step functions and query histories", "why_tests_cant": "History dependent lazily extended list; a failed query still extends it.", "anchors": ["src/time_sequence.py: FunctionTimeSequence"]}
{"id": "C40", "title": "Evaluating an abstract time instant substitutes values, not text", "statement": "abstract[expr](k=v) evaluates expr with k bound to v. (Refuted: textual replacement; k**2 with k=-1 gives -1.)", "quantifier": "all expressions and values", "why_tests_cant": "Operator precedence of negative values.", "anchors": ["src/time_sequence.py: AbstractTimeInstant.__call__"]}
{"id": "C41", "title": "Elapsed-time strings round trip", "statement": "hms2seconds(seconds2hms(s)) = s for every whole number of seconds and the minutes and seconds fields are below 60; likewise for the day format.", "quantifier": "all non-negative integers", "why_tests_cant": "Unbounded.", "anchors": ["tools/miscellaneous/timer.py: MyTimer"]}
{"id": "C42", "title": "Undirected graph is symmetric and simple", "statement": "After any sequence of add_edge calls, b is a neighbour of a iff a is a neighbour of b iff one of the edges was added; neighbour lists have no duplicates; every edge is drawn exactly once (refuted for self-loops, where drawing fails an internal assertion).", "quantifier": "all histories of add_edge", "why_tests_cant": "History dependent.", "anchors": ["tools/miscellaneous/undirected_graph.py"]}
{"id": "C43", "title": "Host ranking is sorted and keeps the best record per host", "statement": "After any sequence of reports the ranking file is read back as written, is sorted by cost, holds at most one record per host (its latest one) and at most the configured number of records, and all hosts if there are few enough. (Refuted: that it keeps the best record of a host, that a dropped host comes back, and that printing shows the recorded cost in the last line.)", "quantifier": "all report histories", "why_tests_cant": "History dependent.", "anchors": ["tools/miscellaneous/ranking.py"]}
{"id": "C44", "title": "Face dof finders return exactly the dofs on the face", "statement": "The local dofs reported for an element face are exactly those whose basis function has a trace on this face, each once, and the trace of a form there is zero iff its coefficients at these dofs are zero (trace: the value of a 0-form, the tangential components of an inner 1-form, the normal component of an outer form). Numbers within a component are the same dofs counted from its first. Repeated calls give the same answer. (Refuted for the msepy 3-D 1-form finder, which returns the edges perpendicular to the face, and for the msehtt 3-D 2-form finder after numbers within a component were asked for.)", "quantifier": "all degrees (different per axis), increasing nodes, faces, spaces, real cochains, sequences of calls", "why_tests_cant": "Unbounded degrees and real cochains; aliasing of cached arrays between calls.", "anchors": ["msepy/space/find/local_dofs.py", "msehtt/static/space/find/local_dofs_on_face/Lambda/m2n2k0.py", "msehtt/static/space/find/local_dofs_on_face/Lambda/m2n2k1.py", "msehtt/static/space/find/local_dofs_on_face/Lambda/m3n3k0.py", "msehtt/static/space/find/local_dofs_on_face/Lambda/m3n3k1.py", "msehtt/static/space/find/local_dofs_on_face/Lambda/m3n3k2.py"]}
{"id": "C45", "title": "Lagrange/edge basis duality", "statement": "The nodal basis polynomials are the Kronecker deltas on the nodes, the edge polynomials have integrals over the node intervals that are Kronecker deltas, and the derivative of the nodal reconstruction of a 0-cochain equals the edge reconstruction of the incidence matrix times the cochain.", "quantifier": "all strictly increasing node sets", "why_tests_cant": "Real-analytic statement for all nodes.", "anchors": ["msepy/tools/polynomials.py"]}
{"id": "C46", "title": "Space-level exterior calculus is type-consistent", "statement": "Asking for a space twice returns one and the same object, whatever was asked in between. Hodge is an involution on the space objects, d raises and codifferential lowers the degree within 0..n keeping the orientation, each undoes the other's space, the codifferential goes where star-d-star goes, wedge is commutative and associative, the trace commutes with d, and cross products land in scalars and vectors as in vector calculus; spaces are equal, and keyed equal, only if they are the same space. The names of vector calculus for d and its codifferential are right: for each dimension, degree and orientation the operators named for consecutive degrees compose to zero, and the codifferential with its sign is adjoint to d up to a divergence.", "quantifier": "all sequences of calls, all meshes, dimensions, degrees, orientations", "why_tests_cant": "The objects depend on everything that was asked for before; a test fixes one history.", "anchors": ["src/spaces/main.py: new, set_mesh", "src/spaces/base.py", "src/spaces/operators.py: d, codifferential, Hodge, wedge, trace, cross_product, Cross_Product, CrossProduct, project_to", "src/spaces/continuous/Lambda.py"]}
{"id": "C47", "title": "Elements in one metric group have the same size", "statement": "Elements that the mesh puts into one metric group (whose mass matrices and Jacobians are computed once, for the first element of the group) have the same side lengths.", "quantifier": "all Linear regions, layouts", "why_tests_cant": "A layout with tiny elements is legal and each value looks right on its own; the collision depends on digits beyond the fifth.", "anchors": ["msepy/manifold/regions/standard/ct.py: _distribute_to_element", "msepy/mesh/elements/main.py: _generate_indices_mapping_from_layout"]}
{"id": "C48", "title": "2-D continuity of 0-forms: vertices", "statement": "For a 2-D mesh generated from regions, two (element, local node) positions get the same global number iff they are joined by interfaces (including around vertices), and the numbers used are exactly 0..M-1, provided no element is its own neighbour and no inner vertex has more than four regions around it. With eight regions around a vertex the code gives the common vertex of two neighbouring elements two different numbers.", "quantifier": "all region maps and layouts, all degrees", "why_tests_cant": "Equality pattern over all meshes; the seek sequences of the corner topology are only right for vertices of valence at most four.", "anchors": ["msepy/mesh/topology/main.py: _find_the_elements_sharing_corner", "msepy/space/gathering_matrix/Lambda.py: _m2_n2_k0"]}
{"id": "C49", "title": "Cached chains are the chains of their members", "statement": "Whatever numberings are created, chained and garbage collected, the chain returned for a list of gathering matrices (from the class-level cache, whose key is built from memory addresses) is the chaining of the matrices now in the list; chaining chains is chaining all their members. (Holds if no address is given to two matrices; refuted if one is reused after garbage collection.)", "quantifier": "all programs that create, chain and drop gathering matrices", "why_tests_cant": "Depends on allocation history; a test would have to force the allocator to reuse an address.", "anchors": ["msehtt/tools/gathering_matrix.py: MseHttGatheringMatrix.__new__/__init__, ___chain_gms_cache___"]}
{"id": "C50", "title": "Gathering matrices compare equal iff they number alike", "statement": "For gathering matrices on the same elements, == is True iff every element has the same row of dofs. (Proved for rows of equal lengths; refuted in general, an element without dofs equals an element with one because the comparison broadcasts.)", "quantifier": "all pairs of numberings", "why_tests_cant": "Pairs of arbitrary numberings; the failing shape pair does not occur in usual tests.", "anchors": ["msehtt/tools/gathering_matrix.py: __eq__"]}
{"id": "C51", "title": "A customised element is frozen", "statement": "After an element of a local matrix has been customised, later changes of its operands or blocks (for example apply_essential_bc on the blocks after set_dof on the whole) no longer show in that element, until the customisation is cleared or replaced.", "quantifier": "all programs of creations, readings, customisations and assemblings afterwards", "why_tests_cant": "Quantifies over all programs that run after a customisation.", "anchors": ["msehtt/tools/matrix/static/local.py: __getitem__, _Static_LocalMatrix_Customize"]}
{"id": "C52", "title": "Assembled matrices are cached by what was requested", "statement": "A request for an assembled matrix with a cache name, a format and a threshold is only answered with a cached matrix that was requested with the same name, format and threshold. (Refuted: the key is the concatenation of the three strings.)", "quantifier": "all pairs of requests", "why_tests_cant": "Needs a pair of names and thresholds that run together.", "anchors": ["msehtt/tools/matrix/static/local.py: assemble __call__ (cache_key)"]}
{"id": "C53", "title": "ndarray-keyed cache protects what it stores from later writes", "statement": "Writing to an array after it was passed to a cached function, or to an array a cached function returned, does not change what later calls return. (Refuted: the cache keeps the arrays themselves.)", "quantifier": "all programs", "why_tests_cant": "Needs the interplay of aliasing and history.", "anchors": ["tools/miscellaneous/ndarray_cache.py: add_to_ndarray_cache"]}
{"id": "C54", "title": "The multigrid solver makes the nested corrections of its schedule", "statement": "For any schedule that never goes above its last layer, the vector the multigrid solver hands to its final solve is that of the recursive scheme: restrict the error of the current iterate, solve and correct on the layer below, add the interpolated result. Forgetting intermediate data (clean=True) never changes the result, and the steps always find the data they need.", "quantifier": "all schedules, matrices, transfers, solvers", "why_tests_cant": "Interplay of aliasing (the iterate is changed in place), step pairing and cleaning along arbitrary schedules.", "anchors": ["msehtt/multigrid/tools/linear_system/static/solvers/multigrid.py: multigrid solver loop"]}
{"id": "C55", "title": "A coarse correction removes the residual", "statement": "With two equal layers, exact transfers and an exact solve on the lower layer, one correction of a V-cycle gives the exact solution. (Refuted: the error is A x - b, the correction solves A dx = A x - b and dx is added, so the residual doubles.)", "quantifier": "all linear systems and iterates", "why_tests_cant": "Follows from the algebra of one cycle for all systems; convergence of the final solve hides it in tests.", "anchors": ["msehtt/multigrid/tools/linear_system/static/solvers/multigrid.py: error = A.M @ x.V - b.V; x._V = x._V + upper_dx._V"]}
{"id": "C56", "title": "Unstructured numbering of hexahedral meshes identifies exactly the shared geometry", "statement": "Numbering the k-form dofs (k = 0..3) of a mesh of hexahedra given by vertex labels gives two positions the same global number iff they are the same vertex, the same place of the same edge, the same place of the same face (edges and faces traversed alike), or the same interior position of one element; all numbers 0..M-1 are used and every local dof has a number. The partition into equal numbers does not depend on the order of the elements, and every rank gets exactly its rows. (Refuted for edges traversed in opposite directions, which are not shared.)", "quantifier": "all finite element lists with arbitrary vertex labels, all positive degrees that agree on shared edges and faces", "why_tests_cant": "Arbitrary meshes, degrees and visiting orders; the numbers of a face of a 1-form are two grids in one row.", "anchors": ["msehtt/static/space/gathering_matrix/Lambda/GM_m3n3k0.py", "msehtt/static/space/gathering_matrix/Lambda/GM_m3n3k1.py", "msehtt/static/space/gathering_matrix/Lambda/GM_m3n3k2.py", "msehtt/static/space/gathering_matrix/Lambda/GM_m3n3k3.py"]}
{"id": "C57", "title": "Forms on tensor product elements: reconstruction, reduction, and exterior derivative fit together", "statement": "For every space of discrete k-forms on a reference element in 1, 2 and 3 dimensions and both orientations, the arrays returned by the reconstruction are the values at the grid of points of the form whose coefficients are numbered by the local numbering; the node values and the line, face and volume integrals of this form are its cochain; and the form of the incidence matrix times the cochain is the gradient, curl, rotation or divergence of the form.", "quantifier": "all degrees (different per axis), all increasing nodes, all real cochains, all grids of points", "why_tests_cant": "Real-analytic identities for all degrees and nodes; orders of kron, slices and reshape have to match the numbering in every space.", "anchors": ["msepy/space/reconstruct/Lambda.py", "msepy/space/basis_functions/Lambda.py", "msehtt/static/space/basis_function/Lambda", "msepy/space/incidence_matrix/Lambda.py", "msepy/space/local_numbering/Lambda.py"]}
{"id": "C58", "title": "Forms on triangles: reconstruction and exterior derivative fit together", "statement": "On a triangle (a square whose left side is one point) the arrays returned by the reconstruction are the values of the form whose coefficients are numbered by the local numbering, with one coefficient for all nodes at the tip and none for the edges there; the form of the incidence matrix times the cochain is the curl or gradient of the 0-form and the divergence or rotation of the 1-form.", "quantifier": "all degrees (inner orientation: px <= py, see C01), all increasing nodes, all real cochains, all grids of points", "why_tests_cant": "Real-analytic identities for all degrees; the merged node and the missing edges change all numbers.", "anchors": ["msehtt/static/space/basis_function/Lambda/bf_m2n2k0.py", "msehtt/static/space/basis_function/Lambda/bf_m2n2k1.py", "msehtt/static/space/incidence_matrix/Lambda/IM_m2n2k0.py", "msehtt/static/space/incidence_matrix/Lambda/IM_m2n2k1.py"]}
{"id": "C59", "title": "Jacobian matrices are the derivatives of the mappings", "statement": "For every predefined region and element mapping (crazy, linear, transfinite with lines and arcs, chaotic, rectangles, boxes, quadrilaterals, triangles, curvilinear and refined triangles, split elements) the matrix returned by Jacobian_matrix at a point is the derivative of mapping there: the mapping is differentiable and the entry (i, j) is the partial derivative of coordinate i in direction j. For elements inside a region this holds if it holds for the region.", "quantifier": "all parameters (bounds, deformations, corner points, arcs), all points, all element origins and sizes", "why_tests_cant": "Derivatives of real functions; a test compares a few points with difference quotients up to a tolerance.", "anchors": ["msepy/manifold/predefined/crazy.py", "msepy/manifold/predefined/_helpers.py", "msepy/mesh/coordinate_transformation.py: mapping, Jacobian_matrix", "tools/functions/space/_2d/transfinite.py", "tools/functions/space/_2d/geometrical_functions", "msehtt/static/manifold/predefined/chaotic.py", "msehtt/static/mesh/great/elements/types"]}
{"id": "C60", "title": "Quantities derived from the Jacobian matrix are what they are called", "statement": "In one, two and three dimensions Jacobian is the determinant of the Jacobian matrix, inverse_Jacobian_matrix its two-sided inverse and the Jacobian matrix of the inverse mapping, inverse_Jacobian the reciprocal of the Jacobian; metric_matrix is J^T J, metric its determinant, inverse_metric_matrix the inverse of metric_matrix; the metric matrix is positive definite and gives inner products of images of vectors. The constants stored for orthogonal elements equal these.", "quantifier": "all Jacobian matrices with nonzero determinant, all vectors, all sizes of orthogonal elements", "why_tests_cant": "Algebraic identities in nine unknowns; tests use few elements, mostly orthogonal ones where wrong indices do not show.", "anchors": ["msepy/mesh/coordinate_transformation.py: Jacobian ... inverse_metric_matrix", "msehtt/static/mesh/great/elements/types/base.py: MseHttGreatMeshBaseElementCooTrans", "msehtt/static/mesh/great/elements/types/orthogonal_rectangle.py: ___OrthogonalRectangle___", "msehtt/static/mesh/great/elements/types/orthogonal_hexahedron.py: ___Orthogonal_Hexahedron___"]}
{"id": "C61", "title": "Predefined domains are glued correctly and not tangled", "statement": "In every predefined msepy domain (crazy, crazy_multi in 1-3 dimensions, backward_step, cylinder_channel) regions that are neighbours according to the region map are each other's neighbours across opposite faces and map the common face to the same points (up to the period in periodic domains), and faces without a neighbour lie on the walls of the domain. Arcs start and end where they should and turn in the stated direction; a transfinite region has the given curves as sides exactly if these meet in the corners. The crazy mapping is one to one onto its box exactly for c below 1/pi (1-D, 2-D) and sqrt(3)/(2 pi) (3-D); so the documented range 0 <= c <= 0.3 is refuted in 3-D. The nine chaotic regions are the parts of one mapping, whose image (refuted to be the bounds when deformed) is [a, a+1] x [0, 1].", "quantifier": "all bounds, deformations, numbers of regions per axis, geometry parameters, all points of the faces", "why_tests_cant": "Identities between real functions on continua of points; injectivity and sign of a determinant over all points.", "anchors": ["msepy/manifold/predefined/crazy.py", "msepy/manifold/predefined/backward_step.py", "msepy/manifold/predefined/cylinder_channel.py", "msepy/manifold/predefined/_helpers.py: _Transfinite2", "tools/functions/space/_2d/geometrical_functions", "msehtt/static/manifold/predefined/chaotic.py"]}
{"id": "C62", "title": "Outward unit normal vectors point out of the element; what counts as flat and what its area is", "statement": "outward_unit_normal_vector of a face of a 2-D or 3-D element is a unit vector, orthogonal to the face, pointing out of the element wherever the Jacobian is positive (and into it where negative); points of the element near the face, and for triangles and convex quadrilaterals the whole element, are behind the face; msepy and msehtt agree. is_plane, is_perp_plane and area do what they say: refuted for is_plane (samples), is_perp_plane (one vanishing component suffices) and area (turned squares, small boxes far away); area is right for boxes whose sides do not count as degenerate.", "quantifier": "all Jacobian matrices with nonzero determinant, all faces and points, all triangles and convex quadrilaterals, all boxes", "why_tests_cant": "Sign and orthogonality for continua of points and all matrices; is_plane itself is a test on samples.", "anchors": ["msehtt/static/mesh/great/elements/types/orthogonal_rectangle.py: outward_unit_normal_vector", "msehtt/static/mesh/great/elements/types/orthogonal_hexahedron.py: outward_unit_normal_vector, is_plane, is_perp_plane, is_rectangle, area", "msehtt/static/mesh/great/elements/types/unique_msepy_curvilinear_hexahedron.py", "msepy/mesh/elements/element.py: outward_unit_normal_vector"]}
{"id": "C63", "title": "Reduction integrates physical fields over mapped mesh objects; reconstruction is its inverse and commutes with derivatives", "statement": "On a mapped element the coefficients returned by reduce are, at the number of each dof, the values of the scalar at the mapped nodes, the sums by the quadrature rule of the line integral of the vector along the image of an edge (inner 1-forms, 3-D 1-forms), of its flux through the image (outer 1-forms to the right of eta-lines and to the left of xi-lines; 3-D 2-forms), and of the density over the image of a cell; exact integrals if the integrand is a polynomial the rule can integrate. The physical components returned by reconstruct have the polynomials of the reference element as components along (across) the images of the coordinate lines. Reducing a reconstructed field gives the cochain back. For the cochain multiplied by the incidence matrix the reconstructed fields satisfy the theorems of Gauss, Green and Stokes and the gradient theorem on images of cells, faces and edges, and in 2-D the reconstructed gradient and curl are pointwise the physical ones.", "quantifier": "all degrees (different per axis), increasing nodes, quadrature rules, differentiable mappings (for reconstruction: with nonzero Jacobian), fields and cochains", "why_tests_cant": "Integrals of arbitrary fields over images under arbitrary mappings; wrong entries of the Jacobian matrix vanish on orthogonal elements, which tests mostly use.", "anchors": ["msepy/space/reduce/Lambda.py", "msepy/space/reconstruct/Lambda.py", "msehtt/static/space/reduce/Lambda", "msehtt/static/space/reconstruct/Lambda"]}
{"id": "C64", "title": "Mass matrices are the inner products of discrete forms", "statement": "For every form on a mapped element in one, two and three dimensions, a^T M b is the sum by the quadrature rule of the Jacobian times the product (dot product of the physical components) of the fields reconstructed from the cochains a and b; M is symmetric, of the size of the number of dofs, and positive definite if the Jacobian is positive at the quadrature points and the rule has positive weights and at least as many points as there are nodes. If the Jacobian matrix is constant and the rule exact for products of basis functions, a^T M b is the exact L2 inner product. The formulas that leave out products of different components are right for orthogonal elements. Refuted: msehtt uses them for curvilinear hexahedra; the default Lobatto rule on linear msepy meshes is not exact; the cache of msepy ignores high_accuracy.", "quantifier": "all degrees (different per axis), increasing nodes, quadrature rules, Jacobian matrices and cochains", "why_tests_cant": "Equality of bilinear forms for all cochains and elements; left-out blocks vanish on the orthogonal elements tests use; symmetry does not show a wrong sign.", "anchors": ["msepy/space/mass_matrix/Lambda.py", "msehtt/static/space/mass_matrix/Lambda"]}
{"id": "C65", "title": "Elements share data through metric signatures only if these data agree", "statement": "Jacobian matrices and mass matrices of msehtt elements are computed once per metric signature: the result returned for an element is the one computed for an earlier element (asked for the same points or degrees) with an equal signature; elements of different types never share, unique elements never share. Elements that are shifts of each other have equal signatures. If the data of elements with equal signatures agree, all results are right in every sequence of calls. Equal signatures of rectangles and boxes bound the difference of the Jacobian matrices by 5e-6, and the unrounded numbers in the signature of a triangle determine it up to a shift for a given orientation. Refuted: convex quadrilaterals with equal signatures but different Jacobians exist, so the second one gets the Jacobian of the first; mirrored triangles share although their Jacobians have opposite signs; triangles turned by 3e-4 share; boxes smaller than 5e-6 share whatever their ratio.", "quantifier": "all sequences of calls, elements, points and degrees", "why_tests_cant": "Collisions of rounded descriptions need elements chosen to collide, and the result depends on the order of calls.", "anchors": ["msehtt/static/mesh/great/elements/types/vtu_5_triangle.py: metric_signature", "msehtt/static/mesh/great/elements/types/vtu_9_quad.py: metric_signature", "msehtt/static/mesh/great/elements/types/orthogonal_rectangle.py: metric_signature", "msehtt/static/mesh/great/elements/types/orthogonal_hexahedron.py: metric_signature", "msehtt/static/mesh/great/elements/types/base.py: Jacobian_matrix", "msehtt/static/space/mass_matrix/Lambda"]}
{"id": "C66", "title": "Cochains at time instants are kept, cleaned, interpolated, saved and read as promised", "statement": "For every history of set and clean calls on a form, the cochain returned for a time is the one last set for it; newest is the largest time that has a cochain (unless the newest one was taken away with clean(t=...)), no accepted call raises, automatic cleaning keeps at most the allowed number of times, and for increasing times exactly the newest ones. Evaluating a msehtt form between stored times gives the point on the chord of the two neighbouring times, at a stored time the stored cochain, and raises outside. A form saved on any number of ranks and read on any others, with elements numbered and distributed differently, has in every element the coefficients saved for the element with the same signature, if signatures are distinct; elements whose signature is missing raise. Equal signatures mean mapped reference points within 1e-4 (1e-3 in 3-D). Refuted: after clean(t=newest) the newest cochain is lost and clean() raises; overwriting a time with automatic cleaning drops another time; msepy interpolates with the two smallest times whatever t is; coincident signatures exchange data silently; elements equal up to rounding noise at coordinate 0 do not match; forms on a part of a mesh can be saved but not read.", "quantifier": "all histories of calls, cochains, times, meshes, distributions and numberings", "why_tests_cant": "Histories, distributions and numberings are unbounded; collisions of rounded signatures need chosen elements.", "anchors": ["msehtt/static/form/cochain/main.py", "msehtt/static/form/main.py: saveto, read, _read_cache_data", "msehtt/static/form/addons/ic.py", "msepy/form/cochain/main.py", "msehtt/static/mesh/great/elements/types/base.py: signature"]}
{"id": "C67", "title": "Dofs of faces with opposite directions are found, reversed in one element, and nothing else changes", "statement": "When two 2-d elements share an edge, the search for topology mismatches marks exactly one of the two sides if and only if the degree-1 dofs of the two sides run in opposite directions along the edge and the test field has a clearly non-zero value there; otherwise it marks neither. After the marked dofs are negated, every field has the same dof on both sides. Only unstructured elements are reversed, of two types always the one later in the priority list. In straight quadrilaterals, triangles and rectangles the degree-1 dof is the work along, or the flux to the right of, the walk between the corners listed. For every degree the dofs of different faces of an element are disjoint; the reduced cochain and the basis functions get the same signs, so values of forms and inner products are unchanged, mass matrices get the signs on both sides, and incidence matrices with reversed rows or columns are the derivatives of the reversed cochains. Refuted: with the constant test field of periodic meshes, edges parallel to (1, 2) (inner) or (2, -1) (outer) are not seen although the directions are opposite; for two elements of one type the choice depends on the order of the elements; a curved triangle is in the priority list but its dofs cannot be reversed (exception).", "quantifier": "all meshes, numberings, element orders, test fields, degrees, cochains and basis values", "why_tests_cant": "Meshes and degrees are unbounded; the random test fields of non-periodic meshes hide the zeros that the constant field has.", "anchors": ["msehtt/static/mesh/great/elements/main.py: _parse_form_face_dof_topology_mismatch", "msehtt/static/mesh/great/elements/types/base.py: bf", "msehtt/static/space/reduce/Lambda/Rd_m2n2k1.py", "msehtt/static/space/mass_matrix/Lambda/MM_m2n2k1.py", "msehtt/static/space/incidence_matrix/Lambda/IM_m2n2k0.py", "msehtt/static/space/incidence_matrix/Lambda/IM_m2n2k1.py"]}
{"id": "C68", "title": "Every element is given to exactly one rank, no rank stays empty, and renumbering keeps every element", "statement": "When a great mesh is set up on several ranks, every element is given to exactly one rank, every rank gets at least one, and the ranks hold the types, parameters and maps of their elements unchanged; with the distance based method this succeeds for any positions of the elements as soon as there are as many elements as ranks, and what a rank takes is nearer to its first element than what it leaves. Elements of msepy manifolds are dealt in consecutive runs, always when there are at most 4 per rank or more than (SIZE-1)(3*SIZE-2)/3. Renumbering numbers the elements by their position, keeps their data, and the new distribution is that of the old elements. Refuted: a rank takes one element more than its share (or more, if distances are equal); with 9 or more ranks and 4*SIZE+1 elements of a manifold the last rank gets nothing and the mesh is refused; a mesh read from a vtu file or from MeshPy is refused on 5 or more ranks whenever it has more than SIZE and fewer than 4*SIZE elements, and in general when the share of the last rank is less than SIZE.", "quantifier": "all numbers of ranks and elements, element names, distances between elements, types, parameters and maps", "why_tests_cant": "Distributions need an MPI run with many ranks; failures appear only for certain numbers of ranks and elements.", "anchors": ["msehtt/static/mesh/great/main.py: _distribute_elements_to_ranks", "msehtt/static/mesh/great/main.py: ___Naive_element_distribution___", "msehtt/static/mesh/great/main.py: _renumbering_", "msehtt/static/mesh/great/config/vtu.py: ___master_rank_distribute___, ___split___"]}
{"id": "C69", "title": "Splitting all elements keeps the mesh conforming, covers the same region with the same area, and names every child once", "statement": "great.config(..., ts=k) splits every triangle into three and every quadrilateral, rectangle and curvilinear quadrilateral into four quadrilaterals, every box into eight, k times. This succeeds for every k when all elements are of these types; the meshes after 0, ..., k-1 splittings are kept under these numbers. Old nodes keep their numbers and places and new ones get the numbers after the largest, so that a node has one place in all elements (straight elements, 2-D and 3-D), and in the plane two elements with a common edge still have the same side there point for point, also when curvilinear. The children of an element cover exactly the element, their areas or volumes add up to it, their sides make up its boundary, and orientation (positive Jacobian determinant everywhere) is kept. Every rank keeps the children of its elements, under different names that start with that of the parent. Neighbouring boxes that number a common face differently still have, at each of its corners, children with a face of the same nodes. Refuted: if two edges between the same two nodes are different curves (an annulus of two curvilinear quadrilaterals), their middles become one node, and no placing of the nodes fits the split mesh; one element of any other type makes every ts >= 1 fail.", "quantifier": "all k, meshes, distributions over ranks, node numbers, names, coordinates and mappings", "why_tests_cant": "Conformity after repeated splitting of any mixture of elements is a statement about infinitely many meshes, real coordinates and curves.", "anchors": ["msehtt/static/mesh/great/main.py: ___ts___", "msehtt/static/mesh/great/main.py: _parse_ts_", "msehtt/static/mesh/great/main.py: ___TSH_UCQ___"]}
{"id": "C70", "title": "Axis-parallel geometries are compared, contained and united as sets of points", "statement": "Two axis-parallel segments or rectangles are equal, or one contains the other, exactly if as sets of points they agree up to 1e-8 in every coordinate, whatever the axes, corners and signs of the lengths. If coordinates that differ by no more than a tolerance (1e-8 for segments of positive length, 1/3000 for rectangles) are equal and the given parts are separate, a geometry is reported to be the union of some of the parts exactly if it is. Geometries that contain each other have the same group key if nearly equal coordinates are equal. Refuted: a segment is not the union of itself given from the other end; every rectangle of area (box of volume) below 1e-7 is the union of nothing; a box takes its side along y for its side along x, so boxes with different sides neither contain their halves nor are their union; coordinates 0 and -1e-9 are equal but have different keys.", "quantifier": "all origins, lengths, sides (any sign), axes, lists of parts", "why_tests_cant": "Tolerances, unions and boxes with different sides: tests use a few regular meshes with unit sizes.", "anchors": ["tools/miscellaneous/geometries/m3n3.py: Point3, OrthogonalSegment3, PerpRectangle, OrthogonalHexahedron"]}
{"id": "C71", "title": "The dof correspondence of two forms lists the dofs that are parts of each dof", "statement": "For two forms on a great mesh and one of its refinements, every dof listed for a dof of form 0 has a place contained in a place of that dof; every dof of form 1 is listed at most once; if equal geometries contain the same ones, the group keys of parts agree and no dof is part of two, exactly the parts are listed, however elements are ordered and distributed over ranks. For dofs on axis-parallel rectangles whose nearly equal coordinates are equal, without periodicity and with disjoint dofs, the listed dofs are those whose points are points of the dof, and the correspondence is complete exactly if every rectangle of form 0 is a union of rectangles of form 1. Each rank gets the lists of its dofs and raises exactly if a listed dof is not its own. Refuted: a periodic dof is found or not according to the order in which its places are met; rectangles that are equal up to 1e-9 around zero are not found.", "quantifier": "all geometries with ==, containment, keys and unions; all distributions of dofs over ranks; all rectangles", "why_tests_cant": "The result depends on element order, ranks and rounding; tests run one refinement of one mesh on one rank.", "anchors": ["msehtt/multigrid/mesh/great/dof_correspondence/global_.py: ___globalDofCorresponding__computer___", "tools/miscellaneous/geometries/m3n3.py: PerpRectangle"]}
{"id": "C72", "title": "Deriving a weak formulation keeps its solutions", "statement": "For a weak formulation with any number of equations and terms: an index selects the term it names and no other string is accepted; rearranging keeps the residual of every equation and gives the sides that were written, for any values of the terms; switching signs negates residuals and is undone by repeating it; replacing puts the new terms in the place and with the sign of the old one and runs exactly if the unknowns still occur; deleting takes one term away; merging has the common solutions. Integration by parts keeps the value of a term under Green's formula and dropping the boundary term changes it by exactly the boundary integral; commuting a triple product gives the target format and the same value; switching to a duality pairing keeps the value; any series of such derivations keeps the solutions. Expressions are read as the signed terms they name, whatever the blanks. Temporal discretization keeps side, place and sign of each term and averages are means. Refuted: splitting and differentiating drop the factor of a term, commuting drops the restriction of a pairing, of several signs only the last one counts, a weak formulation accepts a third side.", "quantifier": "all weak formulations, indices, requests, interpretations of forms and series of derivations", "why_tests_cant": "Derivations are symbolic and checked by eye in the printed result; a wrong sign or a lost factor still yields a well formed equation.", "anchors": ["src/wf/derive.py: WfDerive", "src/wf/main.py: WeakFormulation", "src/wf/term/main.py: _integration_by_parts, split, _commutation_wrt_inner_and_x, _switch_to_duality_pairing, replace", "src/ode/discretize.py: OrdinaryDifferentialEquationDiscretize", "src/pde.py: _parse_expression"]}
{"id": "C73", "title": "The linear system of a weak formulation has its solutions", "statement": "For a weak formulation of any number of equations whose terms are inner products, duality pairings, traces or nonlinear: the product of abstract arrays of a term has the value of its pairing for all coefficients; after wf.mp() and any number of mp.parse each side is the test coefficients times matrix blocks times the target vectors plus what remains, and what remains does not end with a target; coefficients solve the weak formulation for all test coefficients exactly if the rows agree; mp.ls() has the unknowns asked for as x, one for each equation, and A x = b, with A and b evaluated beforehand, holds exactly for the solutions, provided no unknown is on the right-hand side; mp.nls() keeps the residual with the nonlinear terms; assembled blocks have the values of the symbolic ones. An array is read from its text exactly if its factor is 1, a known parameter or a quotient of two and its components are known, and is then read as itself. Refuted: an unknown on the right-hand side stays in b; factors that are sums or nested quotients of parameters cannot be read; nothing can be added to constant_scalar(1/2).", "quantifier": "all spaces, degrees, numbers of dofs, matrices, coefficients, lists of equations, unknowns and parses; all names without the reserved characters", "why_tests_cant": "Tests run a few named problems; a lost sign, transpose or factor changes every other problem, and the text in between is only read by the code itself.", "anchors": ["src/wf/term/ap.py: _parse_reprs_*", "src/spaces/ap.py", "src/algebra/array.py: AbstractArray", "src/algebra/linear_system.py: BlockMatrix, BlockColVector, LinearSystem", "src/wf/mp/main.py: MatrixProxy.parse, _parse_ls, ls, nls", "src/form/parameters.py: _factor_parser", "msehtt/tools/linear_system/dynamic/main.py: DynamicLinearSystem, DynamicTerm", "msehtt/tools/linear_system/dynamic/array_parser.py: msehtt_root_array_parser"]}
{"id": "C74", "title": "Operators on analytic fields have the true values up to the step of the central difference", "statement": "For T2dScalar, T2dVector, T3dScalar and T3dVector: whichever derivatives were supplied, if these are right then time_derivative, gradient, curl, divergence, rot, convection_by and Laplacian have the true value up to M h^2/6 for each derivative taken, M bounding the third (fourth) derivative; with numerical derivatives rot gradient, divergence curl (in two and three dimensions, and for tensors) vanish exactly for every field, and grad div - curl rot is exactly div grad; sums, products, cross and dot products, norm and tensor products have the components of vector algebra, scalars of the plane standing for vectors normal to it, and exactly the listed combinations run; v.integral(t0) is exact for fields affine in time, changes sign with direction, respects bounds and misses the integral by at most L (t-t0) h/2; setting a mesh accepts right derivatives with M < 6000 and what is accepted is right up to 1e-5; a steady field that changes is found out. Refuted: rot gradient with one supplied derivative; vector * scalar and number * 3-D scalar; convection_by of scalars and in space; integrals over less than 1e-8; the check of 3-D vectors, which accepts a wrong derivative on every mesh.", "quantifier": "all fields, points, times, steps, choices of supplied derivatives, meshes", "why_tests_cant": "Tests compare a few trigonometric fields at random points within a tolerance; a swapped or forgotten derivative passes wherever the field is symmetric or the derivative was supplied.", "anchors": ["tools/functions/time_space/_2d/wrappers/scalar.py: T2dScalar", "tools/functions/time_space/_2d/wrappers/vector.py: T2dVector", "tools/functions/time_space/_2d/wrappers/tensor.py: T2dTensor", "tools/functions/time_space/_3d/wrappers/scalar.py: T3dScalar", "tools/functions/time_space/_3d/wrappers/vector.py: T3dVector", "tools/numerical/derivative.py: derivative", "tools/numerical/time_space/_2d/partial_derivative.py", "tools/numerical/time_space/_3d/partial_derivative.py"]}
{"id": "C75", "title": "The matrix of a Newton step is the derivative of the residual", "statement": "For a nonlinear system whose terms are numbers times arrays with the test form and at least two different unknowns (in any order): evaluate_f is A x + N(x) - b and the right-hand side of a Newton step its negative; no step raises and the blocks keep the gathering matrices of the linear part; the matrix of the step, in each element and assembled for any numbering, times a direction is the derivative of the residual in that direction; a step in one unknown is exact; with terms of three forms the residual after a solved step is exactly the nonlinear part of the step; the right-hand side of a Picard step is b - N(x), the residual after a solved step is the change of N, fixed points are exactly the solutions. A term of three forms reduced to a vector or a matrix has the values of the trilinear form, and matrix times cochain is the vector. Newton raises for every term with a factor that is neither unknown nor test form, and for every term with one unknown only. Refuted: the check of forms accepts (u, v, u): with one dof per element evaluation and Picard silently lose a factor; the derivative of one term may carry gathering matrices of its transpose.", "quantifier": "all systems, arrays, factors, orders of forms, cochains, directions, numberings, elements", "why_tests_cant": "Tests run a few flows and look at conservation after converged steps; Newton converges, slower, with a wrong or transposed block, and a converged result does not show which residual was solved.", "anchors": ["msehtt/tools/nonlinear_system/operator/local_multilinear.py: MseHttStaticLocalMultiLinearNonlinearOperator", "msehtt/tools/nonlinear_system/operator/dynamic.py", "msehtt/tools/nonlinear_system/static/main.py: _evaluate_nonlinear_terms, evaluate_f", "msehtt/tools/nonlinear_system/static/solve/Newton_Raphson.py", "msehtt/tools/nonlinear_system/static/solve/Picard.py", "msehtt/static/form/addons/nop_data_computer/trilinear_base.py: MseHttTrilinearBase"]}
{"id": "C76", "title": "The arrays of terms with three forms are these terms and keep what the terms keep", "statement": "For (A x B, C), <A x B | C>, (A x B, dC), (A B, C), (A B, dC), (A dB, C), (A dB, dC): the array of an element contracted with any cochains is the quadrature of the cross or dot product of the reconstructed fields and derivatives; exactly the coded combinations of components are accepted. In a call every element gets the array of its own term if elements with one key have one array. (A x B, B) = 0 and (A x B, A) = 0 for every quadrature and every element, the matrix for a given A is skew and does no work; cross products are cyclic; (A B, C) and (A dB, dC) are symmetric, and nonnegative for A >= 0; terms with a derivative are those of the form dB or dC. The chosen degree is enough: with q, any two rules right to degree 2q+1 give one array for polynomial forms of the degrees given, with a constant Jacobian. The vector of (ln A, B) is its term. In adaptive programs the arrays of the first three are those of the current spaces after any renewals; those of all are if no address of a space is used twice. Refuted for the four others: their dictionaries are never emptied, a reused address gives the array of an old mesh. Terms with a derivative raise for tuples of degrees and, for all dB and dC, curved hexahedra.", "quantifier": "all terms, elements, metrics, forms, cochains, quadratures, degrees, sequences of renewals and terms", "why_tests_cant": "Conservation of energy in a test holds up to solver tolerance and for a few meshes; a wrong sign of one component, too low a degree or an array of an old mesh still gives plausible flows.", "anchors": ["msehtt/static/form/addons/nop_data_computer/trilinear_AxB_ip_C.py", "msehtt/static/form/addons/nop_data_computer/trilinear_AxB_ip_dC.py", "msehtt/static/form/addons/nop_data_computer/trilinear_AxB_dp_C.py", "msehtt/static/form/addons/nop_data_computer/trilinear_ABC.py", "msehtt/static/form/addons/nop_data_computer/trilinear_AB_ip_dC.py", "msehtt/static/form/addons/nop_data_computer/trilinear_AdB_ip_C.py", "msehtt/static/form/addons/nop_data_computer/trilinear_AdB_ip_dC.py", "msehtt/adaptive/main.py: current_base"]}
{"id": "C77", "title": "Manufactured solutions solve their equations, initial conditions are what their names say", "statement": "With exact derivatives the source f of any smooth solenoidal flow (rotational form, total pressure) is that of Navier-Stokes in convective form with the Lorentz force, and m that of Ohm's law with the Hall term. MHD3_0, MHD3_1, Hall 0, 1, 2, 4 solve momentum, Faraday, Ohm, div u = 0, div B = 0 for all c, Rm, Rf, eta; the boundary conditions and periods promised hold. Initial fields are divergence free. The Taylor-Green vortex solves Navier-Stokes without force for every Re; MHD2 and the eigen solution solve their equations; the hand-written derivatives of PNPNS are right, its sources those of momentum, Poisson and both balances where concentrations are positive, which is for shift > 1 and shift > sqrt(1+4 eps^2) exactly. The dipole is divergence free with the stated vorticity and kinetic energy. genpiecewise: the last true condition wins, exclusive conditions give their function, else default or fill. Shear layer, loop, lid and discontinuous concentrations have their documented values. Refuted: div u = 0 for Hall 3; null points balanced for c <> 1; u and B of the conservation test differ; PNPNS concentrations positive for eps = 2 and the default shift; sign and size of the dipole's vorticity; the velocity of the loop for Lx < 0; the loop on arrays of integers.", "quantifier": "all times, points, parameters, quadratures, conditions and pieces", "why_tests_cant": "A test of convergence compares with the sample itself; a wrong source or a sample that does not solve its equation shows as a lower rate on fine meshes only, and positivity or sign fail for other parameters than those tested.", "anchors": ["tools/samples/manuSolution_MHD3.py", "tools/samples/manuSolution_Hall_MHD.py", "tools/samples/manuSolution_MHD2.py", "tools/samples/manuSolution_NS2.py", "tools/samples/manuSolution_Eigen2.py", "tools/samples/manuSolution_PNPNS2.py", "tools/samples/conditions_normal_dipole_collision.py", "tools/samples/iniCond_loop_advection.py", "tools/samples/iniCond_shear_layer_rollup.py", "tools/gen_piece_wise.py: genpiecewise"]}
{"id": "C78", "title": "The iterative solvers take the best steps, on any number of ranks, and fail for small systems", "statement": "gmres and lgmres give the same result for every number of ranks and every distribution of the system. Each round of gmres takes the step in the Krylov space of its residual that leaves the smallest residual; each round of lgmres does so with the last corrections (at most outer_k) in place of Krylov vectors, whatever its dictionaries of corrections and products hold. So residuals never grow: the divergence error is never raised, the result is never worse than the guess, runs end within maxiter rounds, and for maxiter > 0 info is 0 exactly if the residual is below atol; else maxiter was reached or the last round gained less than a millionth. With restart equal to the number of unknowns one round solves the system. For regular matrices a failure happens only at an exact solution or where the Krylov vectors are dependent. Refuted: it always fails (0/0, or an unbound name for restart = 1) if there are fewer unknowns than restart (default 75), if the Krylov vectors are dependent, e.g. for the identity, and for an exact guess with atol = 0 or a forced maxiter; info = 0 is returned without convergence for maxiter = 0.", "quantifier": "all systems, distributions, numbers of ranks, restarts, tolerances, guesses, limits of rounds", "why_tests_cant": "Tests run one or a few ranks on systems much larger than restart; equality over all distributions, optimality of every step and failure on small or special systems are not seen by comparing residuals.", "anchors": ["msehtt/tools/linear_system/static/global_/solvers/mpi_py.py: gmres, lgmres", "msepy/tools/nonlinear_system/static/solve/Newton_Raphson.py: _check_stop_criterion_"]}
{"id": "C79", "title": "Triangular refining gives conforming meshes for every refining function, and wrong numbers if sides are turned", "statement": "For a quadrilateral mesh whose common sides have the same direction in both neighbours, any refining function and any thresholds, the triangular refining of msehtt and msepy ends without an exception and its result is conforming: an edge of the boundary belongs to one element, any other edge to exactly two. The elements cover every quadrilateral without overlap, two nodes have the same number exactly if they are the same point, numbers have no gaps, a level halves exactly the triangles that can be halved (longest side on the boundary or common to two triangles) and where one of the values reaches the threshold, and trf = k gives all triangles of depth k. Triangles are never degenerate, never inverted in convex quadrilaterals, and the refining function is evaluated in them. Quadrilaterals made of triangular regions (TQR) have consistent directions. Refuted: without consistent directions trf = 4 gives one number to two points, and TQR meshes with a triangular next to a quadrilateral region never have them; periodic 2 x 2 meshes raise at level two; trf = 2 with the default function and 'center' raises in msehtt; after an exception the boundary faces of the failed mesh are used for the next one.", "quantifier": "all base meshes, refining functions, numbers of levels and thresholds", "why_tests_cant": "Conformity must hold for every sequence of local refinements; a test sees a few of them, and wrong numbers need four levels on meshes with turned sides to appear.", "anchors": ["msehtt/static/mesh/great/config/msehtt_trf.py", "msehtt/static/mesh/great/config/msepy_trf.py", "msehtt/static/mesh/great/config/trf.py", "msehtt/static/mesh/great/config/tqr.py"]}
{"id": "C80", "title": "Stream functions of region-wise data integrate the velocity, and operations on such data act on the values", "statement": "For any regions, nodes and velocities: the stream function of DDSRegionWiseStructured keeps the value of the corner from which a region is entered, whichever corner this is, and its differences along the lines of nodes are the trapezoidal fluxes. It is found exactly if all regions are linked to the starting corner over common corners, contains every region once, and for linear velocities without divergence on any nodes it is the exact stream function up to one constant for all regions, which is fixed by starting_coo_and_sf and shift. Sums and differences are defined exactly for sets with the same regions, near coordinates and as many components; these, multiples, squares, dot and cross products act on the values at the nodes, and maximum and L2_norm (constants, square arrays in rectangles) are what they say. Refuted: for other velocities without divergence the stream function jumps at common nodes of regions; corners at -1e-9 and 0 are different because '%.7f' writes the sign; a - b may be defined where b - a raises; with arrays of shape (2, 4) the norm of 1 on the unit square is sqrt(2).", "quantifier": "all regions, shapes, nodes, velocities, starting points and data sets", "why_tests_cant": "Which corner a region is entered from depends on the order and the layout of all regions; a test runs one layout.", "anchors": ["tools/dds/region_wise_structured.py"]}
{"id": "C81", "title": "The periodic slice is a torus of equal boxes; forms on it are numbered so, and the face check warns for known layouts", "statement": "For all layouts, bounds, thicknesses and levels for which 'periodic slice' is defined (positive integers and lengths): the elements are 0 .. KxKyL-1, boxes of equal size that cover the slice without overlap; two corners have the same node number iff they are the same point modulo the periods. If at most one direction has a single element, the 0-, 1-, 2-, 3-forms of all degrees get the same number exactly at the same place of the periodic grid and component, and the number of dofs is (1, 3, 3, 1) times the number of grid cells; this includes one level and directions with two elements. The check of faces warns exactly if some direction has two elements or two directions have one; otherwise every face belongs to exactly two positions. Refuted: with one element in x and in y dofs of dx and dy are merged; the warning that such meshes may cause issues is sent for the default of two levels although the numbering is right.", "quantifier": "all layouts, bounds, thicknesses, levels and positive degrees", "why_tests_cant": "Periodic meshes with one or two elements per direction are where shared faces are ambiguous; tests run one layout.", "anchors": ["msehtt/static/mesh/great/config/specific_meshes/periodic_slice.py", "msehtt/static/mesh/great/main.py"]}
{"id": "C82", "title": "Lobatto nodes and weights belong together, tensor products of quadratures integrate axis by axis, custom nodes lie after their parts", "statement": "For all orders p for which the Lobatto rule is computed: p + 1 nodes from -1 to 1, symmetric, symmetric weights, and the i-th weight is 2/(p(p+1)P_p(x_i)^2) for the i-th node returned although only the nodes are reversed; every inner node results from the steps of Newton for P_p', started at cos(k pi/p), stopped at the first step below the tolerance or after 99 steps; roots of P_p' are simple, are kept exactly, and have positive weights. For any axes the raveled points and weights give, for every function, the one-dimensional rules nested in each other; the first axis runs first; quad_weights_ravel are these weights. Custom nodes lie after their parts and end at 1. Two accepted quadratures with the same key of the global caches have the same orders and categories, provided given nodes are written as finite numbers. Refuted: the tolerance of 1e-12 for custom partitions (1e-9 rules; positive parts can give a node beyond 1, followed by 1); given node distributions need not increase; lists of orders or categories, for which the code has a branch, always raise TypeError; a coded category (Gauss, Lobatto) beside a custom one is always refused; parts of custom partitions cannot be written with negative exponents.", "quantifier": "all orders, tolerances, axes, functions, partitions", "why_tests_cant": "Nodes are computed iteratively and weights are paired with reversed nodes; tests compare single rules, and only with symmetric integrands would a wrong pairing stay hidden.", "anchors": ["tools/quadrature.py"]}
{"id": "C83", "title": "Plane lines cross where they should, and segments find their points, their parts and their overlaps", "statement": "For all lines: the crossing returned is on both lines and no other point is; Parallel2dLinesError comes exactly when the determinant is at most 1e-9. Every point between the ends is found on the segment, and a point found on a segment of length at most ten is within 1/4000 of its line. Every part of a segment, in either direction, is contained in it, and has the same group key if both are exactly vertical or differ in x by at least 1e-8 and the slope is 0 or at least 1e-8. What is returned as intersection of parallel segments has its ends on both, and nothing is returned only if no end is on the other; on the x axis overlaps longer than 1e-3, touching points, gaps and inner segments are what is returned, and segments that stick out by 1e-4 are not contained. Segments with the same key are on the same line; a segment equals itself reversed; on the x axis it is the union of the pieces between any successive cuts, and of separate stretches exactly if the lengths of those inside sum up to its length. Refuted: whether lines cross is a matter of the lines alone (it depends on how far apart the given points are); accepted points are within the tolerance of 1e-8 of the line (5e-5 occurs on a unit segment); all contained parts have the key of the whole (so looking up by key misses them); parallel segments always have an intersection or none (overlaps up to 1e-3 raise AssertionError).", "quantifier": "all lines, segments, points and ratios", "why_tests_cant": "Tolerances act on sums of distances and on determinants, whose relation to the geometry depends on lengths and slopes; tests use few segments of length about one.", "anchors": ["tools/miscellaneous/geometries/m2n2.py"]}
{"id": "C84", "title": "Polygons close their edges, contain all points of their edges, and are compared vertex by vertex", "statement": "For all polygons: the i-th edge goes from vertex i to the next one around the polygon, and exists exactly if it is longer than 1e-3. If all edges are, a point is in the polygon exactly if it is found on an edge or matplotlib finds it inside; so every point of every edge is, and a polygon is contained exactly if it is equal or all its vertices are in the polygon. Polygons are equal exactly if their vertices are, one by one. Refuted: contained polygons are subsets (only vertices are looked at, a concave polygon contains its convex hull); the test works for polygons of any size (an edge of at most 1e-3 makes it raise unless the point is found on an earlier edge); rings with the first vertex repeated at the end, as taken over from shapely by union and intersection, have a last edge; equality does not depend on the first vertex.", "quantifier": "all polygons, points, and answers of matplotlib", "why_tests_cant": "Tests use a few convex polygons of size about one, given in one order of their vertices.", "anchors": ["tools/miscellaneous/geometries/m2n2.py"]}

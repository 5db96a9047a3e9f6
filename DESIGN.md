# Formal model of mathischeap/phyem in Rocq/Coq 8.16

## Approach

* Source is read as text; nothing is executed. The model is a shallow embedding
  in Gallina: every modelled python function is a total Gallina function, python
  exceptions and failed `assert`s are `None`, dictionaries are association lists
  in insertion order (python's guarantee) and numpy arrays are index functions
  or lists.
* Each area has three files: `XModel.v` (definitions mirroring the code, with
  file:line citations), `XProofs.v` (lemmas), `XProps.v` (only property
  theorems, `exact lemma.`, an `Example` that meets the hypotheses, and
  `Print Assumptions`). Small areas merge model and proofs in one file but the
  property theorems stay separate.
* Specifications are written independently of the model helpers (cells,
  boundaries, neighbour relations, sums over positions, ...).
* If a property a user relies on is false for the faithful model, the theorem is
  a refutation `..._refuted` with an explicit witness, and the true part
  (under the extra hypothesis) is proved next to it.

## Trusted base

Coq kernel 8.16.1, stdlib. `Print Assumptions` follows every property theorem.
Real-number theorems use the stdlib's classical real axioms (listed in the
section "Axioms" below); everything else is axiom free. The correspondence
between python text and Gallina definitions is by inspection (citations).

Not modelled: floating point rounding (exact rings Z/Q/R are used instead,
unless stated), MPI transport (collectives are modelled as functions of the
list of rank values), matplotlib/vtk output, file system other than the
iterator's cache write.

## Plan per property

* **C01 2-D discrete complex is exact-consistent: rot(grad)=0 and div(curl)=0** - Incidence: model arrays as functions of (i,j) with the F-order local numbering; matrix = list of assignments; composite is shown zero for all px,py by index arithmetic.
* **C02 3-D discrete complex: curl(grad)=0 and div(curl)=0** - As C01 in 3-D.
* **C03 Incidence matrices realise the discrete Stokes theorem** - Same model; the row action on an arbitrary cochain is computed as a finite sum and proved equal to the independent boundary sum.
* **C04 Local numberings are bijections onto 0..N-1** - Numbering functions proved injective, range-correct and surjective by nia/div-mod.
* **C05 Element number <-> (region, local indices) round trip** - List-of-layouts model of numbering, offsets; inverse proved by induction on the regions.
* **C06 Element neighbour map is symmetric** - Model of map generation from region map; symmetry from region map symmetry.
* **C07 Index mapping split and merge are inverse** - Partition of element list by key; merge of split = id.
* **C08 1-D continuity: gathering matrix of 0-forms on a line** - Loop over elements as fold; invariant about numbered prefix.
* **C09 2-D continuity: gathering matrices of edge dofs (inner and outer 1-forms)** - As C08 in 2-D with side arrays.
* **C10 3-D face dofs on meshes with boundary** - Model of the 3-D loop; refutation on the one-element mesh by vm_compute and a general aliasing theorem.
* **C11 Unstructured node/edge/interior numbering identifies exactly the shared geometry (2-D 0-forms)** - Fold with node and edge pools; invariant: pool entries are disjoint allocated intervals; identification iff same geometry.
* **C12 Unstructured edge numbering for 2-D 1-forms identifies exactly the shared edges** - As C11 with edges only.
* **C13 Distinct mesh edges with the same two end vertices** - Refutation: concrete two-element periodic mesh in the model of C11/C12.
* **C14 Chaining gathering matrices is a bijection of the disjoint union of dofs** - First-seen numbering as fold over positions with an association list; invariant: injective, contiguous.
* **C15 Split and merge of chained vectors are inverse** - List split by block sizes; inverse.
* **C16 Locating global dofs is sound and complete** - Model of the find caches as state machine; answers equal to the specification for every history.
* **C17 Translating a dof of the i-th unknown into the chained numbering** - Refutation with a concrete gathering matrix.
* **C18 Chaining method is respected regardless of history** - State machine of the cache; refutation by a two-call history.
* **C19 Matrix assembly is the sum of scattered element contributions over all ranks** - Ring-valued sums over ranks/elements/positions; permutation independence.
* **C20 Vector assembly accumulates every contribution** - numpy indexed += modelled as last-write-wins; equality under NoDup, refutation otherwise.
* **C21 identify_row replaces exactly one global equation by x_i = rhs_i** - Customisation dictionary as list of operations; assembled rows by sums.
* **C22 Essential boundary conditions are imposed exactly** - Consequence of C19-C21.
* **C23 Derived matrices see the customisation of their operand** - State machine of __getitem__ with cache; refutation by history, positive theorem for unique keys.
* **C24 Assembling has no side effect on the local matrices** - State machine; refutation by history.
* **C25 Block assembly equals assembly of blocks** - Sums over blocks, chained numbering of C14.
* **C26 Jacobi preconditioning preserves the solution set** - Diagonal with positive entries over Q.
* **C27 Detected essential rows are unit rows of the gathered matrix** - Refutation; positive theorem for one rank.
* **C28 Iterator remembers exactly the computed inputs** - Fold over histories; set equality.
* **C29 A resumed iteration equals the uninterrupted one** - Transition system of the iterator with cache file as state; simulation.
* **C30 Distinct inputs have distinct cache keys** - Refutation; positive part for integers.
* **C31 ndarray-keyed cache returns only what was stored for a matching key and stays bounded** - State machine with eviction; invariant by induction over operations.
* **C32 ndarray-keyed cache does not confuse different integer keys** - allclose over Z scaled; refutation and positive bound.
* **C33 Memoisation is transparent** - State machine; invariant.
* **C34 Frozen objects accept no new attributes** - State machine; invariant.
* **C35 Multigrid cycles are closed walks on valid levels** - Cycle generators as lists of +-1 moves; walks.
* **C36 Restriction / prolongation pairs of a multigrid schedule are properly nested** - Stack pairing; well-nestedness by induction.
* **C37 Newton-Raphson terminates and reports truthfully** - Loop with fuel bounded by maxiter; exact iteration count.
* **C38 Constant time sequence is an exact arithmetic grid** - Exact rational arithmetic.
* **C39 Function time sequence is monotone and history independent** - Lazy list state machine over Q.
* **C40 Evaluating an abstract time instant substitutes values, not text** - Small expression grammar, printer, and evaluator with python precedence; refutation.
* **C41 Elapsed-time strings round trip** - Z div/mod and decimal printing/parsing.
* **C42 Undirected graph is symmetric and simple** - Association-list graph; invariant.
* **C43 Host ranking is sorted and keeps the best record per host** - Insertion into sorted list; invariant.
* **C44 Face dof finders return exactly the dofs on the face** - Slices of the numbering arrays; traces of the forms of C57 on a face are tensor products in one dimension less, and are zero iff the coefficients of the slice are. Memory model of the cached numpy views for the 2-form finder.
* **C45 Lagrange/edge basis duality** - Reals; Lagrange basis by products; edge functions by sums of derivatives.
* **C46 Space-level exterior calculus is type-consistent** - Registry of space objects; invariant over all sequences of calls: every object is kept under the text of its data; laws follow from the text being injective.
* **C47 Elements in one metric group have the same size** - Rounding over Q; collision for every ratio, distance bound for equal keys.
* **C48 2-D continuity of 0-forms: vertices** - Model of the corner topology (seek sequences, numbering of corners) proved equal to the connected components of side crossings when four crossings close; then the generic numbering loop with groups.
* **C49 Cached chains are the chains of their members** - State machine: objects with addresses, cache keyed by address tuples; invariant over operation lists.
* **C50 Gathering matrices compare equal iff they number alike** - Model of np.all(a == b) with broadcasting of one-entry rows.
* **C51 A customised element is frozen** - State machine of C23; the customisation dictionary is only changed by customising or clearing.
* **C52 Assembled matrices are cached by what was requested** - Refutation by two requests.
* **C53 ndarray-keyed cache protects what it stores from later writes** - Refutation by two programs.
* **C54 The multigrid solver makes the nested corrections of its schedule** - Segment lemma: a nested part of the schedule turns the iterate at its address into the recursive correction, keeping other data; induction over the form of the schedule.
* **C55 A coarse correction removes the residual** - Algebra of one correction; rational instance.
* **C56 Unstructured numbering of hexahedral meshes identifies exactly the shared geometry** - As C11 with edge, face and inner blocks; the element programs are lists of visits interpreted by one invariant.
* **C57 Forms on tensor product elements: reconstruction, reduction, and exterior derivative fit together** - Sums over products; partial derivatives reduce to the one-dimensional theorems of C45; the action of incidence matrices on integer cochains is carried over to real ones.
* **C58 Forms on triangles: reconstruction and exterior derivative fit together** - As C57 with the first nodal polynomial summed over the merged nodes, or left out.
* **C59 Jacobian matrices are the derivatives of the mappings** - Rules of differentiation for functions of two variables from the chain rule of Coquelicot; each mapping is differentiated by them.
* **C60 Quantities derived from the Jacobian matrix are what they are called** - Polynomial identities for n = 1, 2, 3; determinant by Laplace expansion; the rest from associativity of products.
* **C61 Predefined domains are glued correctly and not tangled** - Values of the mappings on the sides of the unit square; trigonometric identities at multiples of the period; determinants of the crazy mappings bounded.
* **C62 Outward unit normal vectors point out of the element; what counts as flat and what its area is** - Cross products of columns of J; sign by the determinant.
* **C63 Reduction integrates physical fields over mapped mesh objects; reconstruction is its inverse and commutes with derivatives** - Chain rule plus the reference-element theorems of C57.
* **C64 Mass matrices are the inner products of discrete forms** - Mass matrices as quadrature sums of the pulled-back inner product; definiteness since a polynomial with too many zeros vanishes.
* **C65 Elements share data through metric signatures only if these data agree** - Explicit collisions of signatures; for triangles the law of cosines.
* **C66 Cochains at time instants are kept, cleaned, interpolated, saved and read as promised** - Stores as association lists, invariants over histories; files as signature-keyed dicts.
* **C67 Dofs of faces with opposite directions are found, reversed in one element, and nothing else changes** - Faces as pairs of vertices with a direction; search as a fold over a pool; signs as products.
* **C68 Every element is given to exactly one rank, no rank stays empty, and renumbering keeps every element** - Shares as lists of numbers; balls by filtering a list; permutations of the concatenation; invariant over the filled ranks.
* **C69 Splitting all elements keeps the mesh conforming, covers the same region with the same area, and names every child once** - Children as parts of the parent mapping; classification of the sides of children; invariant of the node pool; induction over the number of splittings.
* **C70 Axis-parallel geometries are compared, contained and united as sets of points** - Geometries as products of intervals; containment by the ends; unions by cutting everything into the cells of a common grid and adding sizes.
* **C71 The dof correspondence of two forms lists the dofs that are parts of each dof** - The geometries kept for a dof represent all its places through chains of equal ones; the search keeps the invariant that every dof within reach is taken; rectangles are instances through the point sets of C70.
* **C72 Deriving a weak formulation keeps its solutions** - Equations are lists of signed terms; every derivation is shown to keep or change the residual for arbitrary values of the terms, requests are related to the text they are written as, and series of derivations follow by induction.
* **C73 The linear system of a weak formulation has its solutions** - Each pattern of terms is shown to give a product of arrays with the value of the pairing; taking off test vectors, sorting into blocks and parsing are invariants on the value of a row; texts of arrays are shown to be read uniquely by following where separators can occur.
* **C74 Operators on analytic fields have the true values up to the step of the central difference** - Central differences are bounded by growing functions (mean value theorem); the bounds are carried through each operator for any choice of supplied derivatives; sequences are algebra of shifted values; the trapezoidal rule by induction over segments.
* **C75 The matrix of a Newton step is the derivative of the residual** - einsum over letters is a multilinear form with unit vectors in the open axes; a block of the matrix is the form with one unit vector more; the derivative of a multilinear form is the sum over its arguments, which is resorted by unknowns; assembling is a finite sum.
* **C76 The arrays of terms with three forms are these terms and keep what the terms keep** - each entry of an array is a finite sum over quadrature nodes of products of components; contracting with cochains swaps the sums and gives the cross or dot product of reconstructed fields node by node, so pointwise identities carry over; degrees by moments of monomials; caches by an invariant over renewals and terms.
* **C77 Manufactured solutions solve their equations, initial conditions are what their names say** - relations for partial derivatives (is_derive) make up the equations; explicit derivatives of each sample are checked by auto_derive, the identity of rotational and convective forms is proved once for all smooth solenoidal fields; piecewise functions by induction over the pieces.
* **C78 The iterative solvers take the best steps, on any number of ranks, and fail for small systems** - a simulation takes all ranks to a serial algorithm without caches; invariants of the orthogonalisation (orthonormal rows, relation of Hessenberg type) give the Gram matrix of the images, so the normal equations are least squares; Krylov spaces by mutual inclusion of spans; dimensions by the sum of squared defects of unit vectors; the loop by a trace.
* **C79 Triangular refining gives conforming meshes for every refining function, and wrong numbers if sides are turned** - vertices of all triangles lie on dyadic lattices with a normal form per triangle; two triangles have the same longest side iff its middle is the same, hence every triangle has exactly one mate or lies at the boundary; sets of refined elements closed under parents and mates have conforming leaves, and every level keeps them closed; tilings by weights of vertices.
* **C80 Stream functions of region-wise data integrate the velocity, and operations on such data act on the values** - going back along a side undoes going forward, so all four starting corners give the array determined by its value at (0, 0); an invariant of the pool of corners (all values are psi plus one constant; its keys are those of the reached regions) and progress of every pass while a reached region is missing; operations by the entries of lists.
* **C81 The periodic slice is a torus of equal boxes; forms on it are numbered so, and the face check warns for known layouts** - every node number is the label of its three indices modulo the numbers of elements, for one level as for several; places of local dofs compared axis by axis (end or inside), labels determine indices, equal keys of edges in different directions need two directions with one element; a face key is the set of its nodes, which determines its axis-wise index sets.
* **C82 Lobatto nodes and weights belong together, tensor products of quadratures integrate axis by axis, custom nodes lie after their parts** - two recurrences for derivatives of neighbouring Legendre polynomials by one induction give the formula of the code, the differential equation and simple roots; the steps of Newton are odd and the first guesses antisymmetric, so nodes are symmetric and weights may stay unreversed; sums over indices in order F are exchanged axis by axis.
* **C83 Plane lines cross where they should, and segments find their points, their parts and their overlaps** - points of a line by their ratio; distances along a line are multiples of its length, so the test by the sum of distances is exact for points between the ends; a detour over a point off the line is bounded below by Cauchy-Schwarz; slopes and intercepts of parts by field; the intersection of parallel segments by cases of the four tests.
* **C84 Polygons close their edges, contain all points of their edges, and are compared vertex by vertex** - the loop over the edges as a search for the first edge with the point, by induction over the edges left; the answer of matplotlib is any function.

## What is modelled, and how it is simplified

* **Incidence** (`NdArray`, `LocalNumberingModel`, `IncidenceModel`; theorems in `IncidenceProps`).
  `np.arange(..).reshape(.., order='F')` arrays are a base and a shape. A sparse
  matrix is the list of its assignments in program order and the last assignment
  to a position wins (lil_matrix). Entries are integers. msepy and msehtt
  quadrilateral, hexahedral and triangle (vtu-5) matrices are covered.
* **Structured mesh** (`MeshModel`, `MetricKeyModel`; theorems in `MeshProps`).
  A layout is reduced to the number of elements per axis, except in the metric
  key where lengths are rationals. The neighbour array is the list of its
  column assignments. Regions of type 0 (structured) only. The broadcast of a
  one-slice batch in `merge` is left out, and so is its conversion of the dtype
  to float.
* **Global numbering of msepy** (`GatherModel`, `TopologyModel`; theorems in `GatherProps`).
  The per-form loops of `Lambda.py` are instances of one loop over elements and
  places (interior, side, corner group) with the slices and the branch rule as
  parameters. A numbering array is the list of its writes. Not modelled: 3-D 0-
  and 1-forms and boundary traces.
* **Gathering matrices** (`Dict`, `GmModel`, `MsChainModel`; theorems in `GmProps`).
  A gathering matrix of msehtt is a list over ranks of dictionaries element ->
  row; the master-rank communication is the composition of the local parts. Data
  type conversions to float in merge/assemble are left out. The class-level
  cache is a state machine with explicit addresses. `hash` of a list is a
  parameter. msepy numberings are lists of rows.
* **Local matrices, vectors, systems** (`QSums`, `LmModel`, `LmSpec`; theorems in `LmProps`).
  Scalars are exact rationals. A sparse matrix is csr or csc with its stored
  lines (duplicates and stored zeros allowed). A matrix of all ranks is the list
  of the dictionaries element -> matrix seen through `__getitem__`; an assembled
  matrix is the list over ranks of its (row, column, value) triples and its value
  the sum over the ranks. `v[ix] += d` reads, adds, and writes all places. The
  caches behind `__getitem__` are left out here.
* **Reading local matrices** (`LmCacheModel`, `LmCacheSpec`; theorems in `LmCacheProps`).
  One rank. Objects are given data, functions, or results of operations on
  earlier objects; each has its cache and its customisations. Arrays are in a
  heap, a transposed matrix is a view of the array of its operand. Assembling
  with a threshold writes into the arrays. The element-wise operations are
  arbitrary functions making new arrays. Not modelled: `adjust`, in-place changes
  made by the caller, operands changed after creation.
* **Iterator** (`IterModel`, `IterSpec`; theorems in `IterProps`).
  Inputs are rationals. The solver is an arbitrary function of state and input,
  what is written of the state and how it is read back are functions. A run
  follows a schedule saying which steps write the file (the wall clock rule of the
  source), and a killed run is a run over a prefix. Writing is atomic. Not modelled:
  monitors, the data frame columns, cache files of different iterators.
* **Caches keyed by arrays** (`NdCacheModel`, `NdCacheSpec`; theorems in `NdCacheProps`).
  Array entries are rationals and a result is one array. The cached function is
  arbitrary. Arrays live in a heap, the cache holds addresses. The record of
  attempts belongs to the cache instead of to its address.
* **Memoising and freezing** (`MemoModel`, `MemoSpec`; theorems in `MemoProps`).
  Arguments are integers, booleans, None, floats (rationals), texts and integer
  arrays; memoised functions do not depend on other state. `repr` of floats and
  texts is not modelled (memoize1 on such arguments is not covered). An object is
  its attributes, the names of its class, and the read-only ones among them.
* **Multigrid** (`MgModel`, `MgSpec`; theorems in `MgProps`).
  A schedule is a list of restrictions and interpolations with their layers; '2-1-1-2'
  is the list of its numbers. In the solver one rank; vectors are an arbitrary type
  and matrices, transfers, and solvers arbitrary functions without side effects;
  iterates are addresses because they are changed in place. Not modelled: the
  correspondence of dofs of two layers, the copy of the result to lower layers.
* **Small tools** (`MiscModel`, `MiscSpec`; theorems in `MiscProps`).
  Texts are Coq strings. Seconds are exact rationals. Costs of a ranking are an
  ordered type with a printing and a reading function that fit; the file is a text.
  Coordinates of graph nodes, plotting and pipes are left out.
* **Time sequences** (`TimeModel`, `TimeSpec`; theorems in `TimeProps`).
  Times and steps are exact rationals, `round(x, 8)` is an integer number of 1e-8.
  The function of a function time sequence is the sequence of its answers, a raised
  exception included. `eval` is a lexer and a parser for decimal literals without
  exponent, single letters, + - * / ** and parentheses; a power with a broken
  exponent counts as an exception. Symbolic representations, the caches of instants
  and intervals by their text, and plotting are left out.
* **Nonlinear solvers** (NrModel.v, C37): `_check_stop_criterion_`, the loops of
  Newton-Raphson and Picard, `_Xxx.update`, the customizations with their
  'take-effect' flags, boundary conditions on hold and `solve`. One rank; entries are
  exact rationals; norms are rationals, inf or nan, given by an arbitrary function;
  building and solving the linear system of one iteration is an arbitrary function of
  the iterate and the customizations (what the customizations do to a linear system is
  C21, C22); messages, times and the assembling cache are left out.
* **Numbering by vertex labels** (`UnModel`, `UnSpec`; theorems in `UnProps`, C11-C13, C56):
  the gathering matrices of msehtt for k-forms in 2-D and 3-D. An element function is the
  list of the places it visits, in order, with the slice of the array it fills there; the
  rules of a visit (pools, reversed edges, broadcasting when an array is assigned to a
  slice) are interpreted. Positions are described in `UnSpec` without these lists: where
  the dof of a local number lies relative to the corners of its element. Left out: the memo by
  mesh and degree, broadcasting the numbering to other ranks (every rank gets the rows of
  its elements), meshes declared with mismatched faces (NotImplementedError).
* **One-dimensional polynomials** (`PolyModel`, `PolyCacheModel`, `PolySpec`; theorems in `PolyProps`, C45):
  class `_OneDimPolynomial`: checks of the nodes, nodal polynomials by products, the
  derivative matrix, edge polynomials by sums of derivatives. Real numbers instead of
  floats. Derivatives and integrals in the theorems are those of Coquelicot. The memory of
  evaluations is modelled for nodal polynomials with rational nodes and points
  (`PolyCacheModel`, on top of the ndarray cache of C31 and C32).
* **Tensor product elements** (`TensorModel`, `TensorSpec`; theorems in `TensorProps`, C57):
  basis function matrices by kron, slices of the local cochain, einsum, and the reshape in
  Fortran order, for all spaces in 1-3 dimensions on the reference element. The incidence
  matrices and local numberings are those of C01-C04. Left out here: mappings.
* **Abstract spaces** (`SpaceModel`, `SpaceSpec`; theorems in `SpaceProps`, C46): the
  registry of spaces per mesh, the constructors' checks and texts, the operators between
  spaces and the texts used as keys. A mesh is its text, the text of its manifold, its
  dimension and whether it is periodic. Identity of objects is a number. Left out:
  `finite`, `specify_all`, meshes given by their text.
* **Dofs on faces** (`FaceModel`, `FaceMemModel`, `FaceSpec`; theorems in `FaceProps`, C44): the finders of msepy and msehtt as
  slices of the local numbering arrays. The 2-form finder in 3-D is also modelled with memory: entries of the cached numbering arrays have addresses,
  a found list is a view (list of addresses) or a copy, `-=` writes through the view; whether `ravel` copies is arbitrary. Left out: geometric
  positions of dofs, the parts for element types msehtt refuses.
* **Triangles** (`TriBasisModel`; theorems in `TriProps`, C58): basis functions and reconstruction on the reference square of a triangle. Mappings are left out.
* **Mappings** (`MappingModel`, `MappingSpec`; theorems in `MappingProps`, C59): the functions `mapping` and `Jacobian_matrix` of regions and elements,
  entrywise on one point. pi, sin, cos, acos, sqrt are the real functions. `np.linalg.inv` of the constant 4x4 matrix of quadrilaterals is its exact
  inverse. Branches that skip entries which are the integer 0 are merged with the general ones.
* **Jacobians** (`JacobianModel`, `JacobianSpec`; theorems in `JacobianProps`, C60): determinants, inverses, metric matrices. Left out: caches by metric signature.
* **Domains** (`RegionModel`, `RegionSpec`, `CrazySpec`; theorems in `RegionProps`, C61): region maps as dicts and the mappings of the regions. Boundary
  faces and periodicity as in the code; names of regions are numbers. Left out: element layouts, the 3-D cylinder (raises), unstructured msehtt regions.
* **Normals** (`NormalModel`, `NormalSpec`; theorems in `NormalProps`, C62): faces of elements at one point; is_plane, is_perp_plane, is_rectangle as
  propositions over the sample points, `np.isclose` on reals. Left out: rounding of constant normals to six digits, caches, exact linspace in floats.
* **Reduction and reconstruction** (`ReduceModel`, `ReduceSpec`; theorems in `ReduceProps`, C63): reduce and reconstruct of all forms in 2-D and 3-D on
  one element with a mapping and its Jacobian matrix, loops and einsums entrywise; the row left out on triangles. Fields are functions of a point at
  a fixed time. Quadrature nodes and weights are arguments. Branches that skip entries of J which are the integer 0 are merged with the general
  ones. Left out: the reversal of dofs on some faces, msepy's grouping of elements by metric signature, ravel of the reconstructed arrays.
* **Mass matrices** (`MassModel`, `MassSpec`; theorems in `MassProps`, C64): all mass matrices of one element as functions of its Jacobian matrix, nodes and
  a rule; einsum and bmat entrywise; `linear` selects the formulas without products of different components. The choice of the rule and the cache of
  msepy `__call__`. Left out: reversed signs on some faces, sparse storage, 1-forms on curves in the plane, how elements share matrices through
  metric signatures.
* **Metric signatures** (`SignatureModel`, `SignatureSpec`; theorems in `SignatureProps`, C65): the signatures as lists of rounded numbers, `None` for nan, and the
  caches keyed by them. sqrt, acos and pi are the real ones; letters between the numbers are left out. Points are compared exactly in the cache.
* **Cochains in time and files** (`CochainModel`, `CochainSpec`; theorems in `CochainProps`, C66): dicts as association lists in insertion order, times as integers
  (multiples of 1e-8), ranks as a list. Left out: forms that delegate to a base form, pickle, cochains set as callables, lengths of local cochains.
  The floats of the times are exact; all ranks have the times of the first one.
* **Reversed dofs** (`ReversalModel`, `ReversalSpec`, `ReversalGeom`; theorems in `ReversalProps`, C67): the pools of the search are one list in order of insertion;
  one rank; the values of the test field are real numbers, compared with the tolerances of np.isclose. The reduction and the numbering are given with each
  element; for straight elements the reduction is the one of C63. Left out: caches of the matrices (their keys contain the list of reversed faces), msepy curved
  elements in the link between dofs and corners.
* **Distribution over ranks** (`DistributeModel`, `DistributeSpec`; theorems in `DistributeProps`, C68): the call on the master rank; COMM.scatter hands entry r
  to rank r. Names of elements are any type with decided equality, distances any rational-valued function of two elements (so rounding in the distances is
  covered); n / num_piles is exact division. Left out: coordinates of nodes in the vtu redistribution, reading the file, element types in `_renumbering_` other
  than the default indicator.
* **Splitting of elements** (`SplitModel`, `SplitSpec`; theorems in `SplitProps`, C69): types, parameters and maps of a rank are one list of elements; the name of an
  element is str(e_index), so keys that differ but are printed equally are outside the model; coordinates are real numbers and mappings of curvilinear elements arbitrary
  functions; the mapping of elements is that of C59. Left out: storing of distributions and types on the master rank, rank-wise dicts being empty, 3-D conformity beyond
  the places of nodes. A "region" of a triangle is the convex hull of its corners.
* **Axis-parallel geometries** (`AxisModel`, `AxisSpec`; theorems in `AxisProps`, C70): coordinates are rationals, so rounding of sums and products of floats is left out;
  `'%.6f' % round(x, 6)` is one rounding to the nearest (halves to even) with the sign that is printed; strings of keys are kept as tuples of their parts. Left out: geometries of
  other classes as arguments, StraightSegment3, lines, angles, polyhedra.
* **Dof correspondence** (`DofcorModel`, `DofcorSpec`; theorems in `DofcorProps`, C71): the ranks hand in (global dof, geometry) in the order of their loops; gathering is concatenation in rank order.
  The list shared by DOF_GEO_1 and DOF_GEO_1_COPY is extended twice, as in the code. Left out: finding the geometry of a local dof, the cache of results, lists of geometries of mixed classes
  (the assertion of lines 150-153).
* **Weak formulations** (`WfModel`, `WfSpec`; theorems in `WfProps`, C72): equations are pairs of lists of signed terms; terms are pairings of forms with a factor; forms are trees of the operators the derivations look at.
  Their values come from any interpretation in any space (`interp`), what a derivation relies on (Green's formula, the triple product, the Hodge star) being a hypothesis on it. Left out: meshes and spaces of forms
  with their checks, test forms, boundary conditions, printing. `Form.replace` is modelled on trees; in the code it substitutes in the text that represents the form. Ordering of terms in an ode by order of time derivative is not modelled.
* **Proxies of weak formulations** (`ProxyModel`, `ProxySpec`; theorems in `ProxyProps`, C73): root forms are numbers with a space and a degree; arrays are lists of root arrays with a flag for transposed and a symbolic factor.
  The values of mass, incidence, trace and pairing matrices are arbitrary but for symmetry and transposition (`arrays_ok`); coefficients are arbitrary reals. Left out: printing, boundary conditions, time indicators,
  triple products other than as opaque nonlinear terms. The text of an array is modelled with the separators of config.py; names of arrays and parameters are arbitrary without reserved characters (`names_ok`).
* **Analytic fields** (`FieldModel`, `FieldSpec`; theorems in `FieldProps`, C74): fields are functions of reals; a field on arrays is the field at each point; numbers are real instead of floating point, so rounding of central differences
  (which dominates below steps of about 1e-5) is not covered. Derivatives in statements are Coquelicot's `is_derive`. Left out: plotting, merging over boundaries, linked objects, allowed time ranges, the mesh a result keeps, checks of second
  derivatives, T1dScalar, T3dTensor, fields on lines.
* **Nonlinear systems** (`NlModel`, `NlSpec`; theorems in `NlProps`, C75): operators, elimination, evaluation, derivative contributions, the matrix and right-hand side of one Newton or Picard step, terms of three forms. Numbers are reals;
  arrays are functions of indices with a shape; einsum is modelled over letters without broadcasting of axes of length 1. Derivatives are Coquelicot's `is_derive`. Left out: quadrature making the arrays, the linear solver (C37 covers the loop),
  customizations of a step, operators that are not multilinear.
* **Terms with three forms** (`TermModel`, `TermSpec`; theorems in `TermProps`, C76): the 3d data of the seven trilinear terms from reconstruction matrices, incidence matrices, Jacobian and weights, keys of elements, the choice of the quadrature degree, the
  dictionaries over renewals of an adaptive program, the vector of (ln A, B). Numbers are reals; a reconstruction matrix is a function of node and dof. Left out: that the reconstruction matrices are those of the forms (areas on reconstruction), making of Gauss nodes, saving of arrays to disk.
* **Samples** (`SampleModel`, `SampleSpec`; theorems in `SampleProps`, C77): the fields and sources of the manufactured solutions of MHD, Hall MHD, Navier-Stokes, the eigen solution and PNPNS, initial conditions, and genpiecewise at one point. Sources are parametrised by the
  differentiation used: the numeric one of the analytic fields (`numeric2`, `numeric3`; error bounds in the area on fields) or exact derivatives; theorems on equations take exact derivatives. Numbers are reals, sqrt and ln of negatives are those of Coq and not nan, so theorems that use them assume a sign. The kinetic energy of the dipole is a weighted sum over given nodes. Left out: shapes of arrays in genpiecewise, samples that only give constants.
* **Iterative solvers** (`GmresModel`, `GmresSpec`; theorems in `GmresProps`, C78): gmres and lgmres with all ranks run together, the arrays each rank holds (rows of the basis, its part of the Hessenberg matrix, not reset between rounds), the dictionaries of lgmres, the stop criterion with its list of residuals.
  Numbers are reals; reductions are sums over ranks; np.linalg.solve is a parameter whose results solve the system; a division by zero counts as failure (numpy goes on with nan; in floating point a remainder that is zero in the reals is round-off, and the next row is noise). The content of np.empty is taken to be zero and shown to be of no account. Left out: messages, times, the cache of residuals, and that the array of the guess is overwritten by the result.
* **Triangular refining** (`TrfModel`, `TrfSpec`; theorems in `TrfProps`, C79): the levels of msehtt_trf.py and msepy_trf.py with the search of pairs over node numbers, the boundary faces and their module-level cache, the node indicators and the numbering, the vertices of triangles, the points where the refining function is evaluated, the maps of triangles, and the quadrilaterals that tqr.py makes of regions.
  Reference coordinates are exact (they are dyadic). A refining function is any function of the element; that it is evaluated at the modelled points is proved for the points only. msepy is given its boundary faces (a hypothesis). Left out: element types and parameters beyond vertices, three dimensions, ranks, plotting.
* **Region-wise structured data** (`DdsModel`, `DdsSpec`; theorems in `DdsProps`, C80): the four branches of the stream function of a region, the pool of corners with its keys ('%.7f', ties to even), the passes over the sorted regions and the recursion with its assertion, starting points and shifts; differences, sums, multiples, squares, dot and cross products with the check of coordinates (np.allclose); maximum and L2_norm (squared).
  Numbers are rationals without rounding errors; the float -0.0 is 0. The recursion is bounded by the number of regions plus one, which is proved to be enough. Left out: plotting, files, interpolation, `norm`, powers other than two, tensors, broadcasting of coordinates of different shapes.
* **Periodic slice** (`PslModel`, `PslSpec`; theorems in `PslProps`, C81): `periodic_slice` with its assertions, both branches of the node numbering (array assignments in order), origins, sizes and element maps; `_check_global_element_map_dict` for hexahedra (pool of sorted face nodes, warning). The numberings are those of `UnModel` (C56).
  Numbers are rationals without rounding errors. Left out: the text of the warning, the check of face ids, periodic meshes from other sources.
* **Quadratures** (`QdModel`, `QdSpec`; theorems in `QdProps`, C82): `quadrature` (which arguments are hashable and what `Quadrature` gets), `___PRIVATE_compute_Lobatto___` with the Legendre functions and the method of Newton, `___PRIVATE_compute_CUS_NODES___`, `___PRIVATE_compute_NodeDistribution___`, `quad_ndim`, `quad_ndim_ravel`, `quad_weights_ravel`.
  Real numbers without rounding errors; `scipy.special.legendre` is the recurrence of Bonnet; a division by zero (nan) is None. Left out: Gauss nodes (scipy), convergence of the iteration.
  `QkModel`, `QkSpec` (theorems in `QkProps`, C82): which orders and texts of categories `Quadrature.__init__` and `___PRIVATE_check_p___` accept, and the key of the global caches; the texts of numbers are not parsed.
* **Plane segments** (`SgModel`, `SgSpec`; theorems in `SgProps`, C83): `Point2.__eq__`, `distance2`, the constructors of `StraightLine2` and `StraightSegment2`, `slope`, `___possible_subset_group_key___`, `whether_point_on_straight_segment`, `whether_contain__input__as_a_part_of_same_type`, `whether_two_lines_or_segments_parallel`, `line2_line2_intersection`, `find_intersection_of_two_parallel_straight_segments`.
  Real numbers without rounding errors; keys are the numbers before they are rounded and printed. `is_equal_to_a_union_of_a_part_of_separate_geometries_of_same_type` of segments. Left out: polygons, curves, signatures.
* **Polygons** (`SgPoly`; theorems in `SgPolyProps`, C84): `Polygon2.edges`, `whether_point_in_polygon`, `Polygon2.__eq__`, `Polygon2.whether_contain__input__as_a_part_of_same_type`.
  Real numbers without rounding errors; `Path.contains_point` of matplotlib is any function. Left out: areas, unions and intersections (shapely), curves. That rings of shapely repeat their first vertex is taken from its documentation.

## Findings (refuted properties and defects met while modelling)

* C03/C04: msehtt reports the two component sizes of outer 2-D 1-forms swapped
  (`component_sizes_htt_m2n2k1_outer_refuted`); inner triangle incidence matrices
  have the wrong number of rows if px <> py and raise for px > py
  (`gradient_triangle_inner_refuted`, `gradient_triangle_inner_rows_refuted`).
* C47: metric groups are keyed by lengths rounded to five decimals, so elements
  of different size share one mass matrix (`metric_key_refuted`).
* C08/C09: an element that is its own neighbour (one periodic element along an
  axis) keeps the initial -1 (`numbering_0forms_1d_one_periodic_element_refuted`).
* C10: 3-D 2-forms: the boundary test looks for a string, the map holds -1, so the
  boundary side copies from the last element (`numbering_2forms_3d_boundary_refuted`).
* C48: the corner topology walks at most three sides each way, so a vertex with
  eight elements is torn (`numbering_0forms_2d_eight_elements_refuted`).
* C49: the cache key of chained gathering matrices is made of memory addresses; an
  address reused after garbage collection returns the old chain
  (`chain_cache_address_reuse_refuted`).
* C16: the location cache is keyed by a hash of the list asked for
  (`locations_after_hash_collision_refuted`).
* C17: `find_global_numbering_of_ith_composition_global_dof` takes the pair (rank,
  element) of a representative for (element, local dof): it gives a wrong dof or
  raises (`number_of_global_dof_refuted`, `number_of_global_dof_raises_refuted`).
* C50: equality broadcasts (`equality_with_empty_element_refuted`).
* C18: msepy chaining method 0 merges dofs if a member is not numbered in order of
  appearance (`chaining_method_0_unordered_refuted`); the cache ignores the method
  (`chaining_method_ignored_refuted`).
* C20: `v[gm[e]] += b[e]` loses contributions if an element repeats a dof
  (`assembled_vector_repeated_dof_refuted`).
* C21: `identify_row` puts the one at local (l, l), which is another column if the
  column numbering differs (`identified_row_rectangular_refuted`).
* C27: a row shared by several ranks is reported as essential if it is a unit row in
  exactly one of them (`essential_rows_refuted`).
* C23: results of -A, A.T, c*A, A+B, A@B take the cache keys of their operands; a
  customised operand gives wrong data for elements sharing a key
  (`negated_customised_matrix_refuted`) or stale data (`stale_negated_matrix_refuted`).
  Keys of products and sums run together (`product_of_matrices_keys_refuted`,
  `sum_of_matrices_keys_refuted`).
* C24: `threshold` zeroes the data in place: in the given data, in the operand of a
  transposed matrix, in customisations and in caches (`threshold_changes_*_refuted`).
* C51: customising the whole and then a block: the change of the block is ignored.
* C52: `assembled_matrix_cache_key_refuted`.
* C29: an input that occurs twice, or two inputs equal up to five decimals, make the
  resumed run reuse the wrong result (`repeated_inputs_resume_refuted`,
  `close_inputs_resume_refuted`); if all results come from the file the objects keep
  their initial state (`state_after_finished_run_refuted`).
* C30: `distinct_inputs_same_key_refuted`.
* C32: dofs above 1e5 are confused by the relative tolerance: the places of another dof
  (`finding_far_dofs_refuted`), or places for a dof that does not exist
  (`finding_missing_dof_refuted`).
* C53: the cache keeps references (`argument_changed_later_refuted`,
  `result_changed_later_refuted`).
* C33: memoize1 abbreviates arrays with more than 1000 entries
  (`memoize1_long_arrays_refuted`); memoize2-5 take 1, 1.0 and True for the same
  argument (`memoize3_types_refuted`). A memoised method raises on an object frozen
  before the first memoised call (`memoised_methods`).
* C35: accepted W sequences may leave the layers (`W_cycle_below_bottom_refuted`,
  `W_cycle_above_top_refuted`).
* C55: the error is A x - b, and the solution of A dx = error is added instead of
  subtracted (`coarse_correction_doubles_the_residual`, `coarse_correction_refuted`).
* C41: negative times with milliseconds (`dhmsm_negative_refuted`).
* C42: a self-loop is accepted but drawing then fails (`self_loop_drawing_refuted`).
* C43: a slower report replaces a faster one (`ranking_keeps_best_refuted`), dropped
  hosts are forgotten (`ranking_of_all_hosts_refuted`), and `print_ranking` cuts the
  last digit of the last cost because the file has no final newline
  (`printed_ranking`, `printed_cost_refuted`).
* C38: a step slightly below a whole number (rounding error) is rejected although one
  slightly above is accepted (`slightly_below_refuted`, `slightly_above_accepted`).
* C39: a question too far ahead raises, but asking it again succeeds
  (`failed_question_advances_refuted`); after the step function once raised or gave
  no positive number, steps and times are out of line for good: times no longer
  increase (`failed_function_refuted`) and the newest step raises IndexError
  (`failed_function_for_good_refuted`).
* C40: values are pasted as text: `k**2` with k = -1 is -1 (`power_of_negative_refuted`),
  `2k` with k = 3 is 23 (`factor_in_front_refuted`). Values are right when letters stand
  apart from other letters and digits and no negative value is the base of a power.
* C37: a nonlinear system with customizations, or with an essential boundary condition
  in a row with nonlinear terms, can be solved once only (`second_solve_raises`); a run
  that fails in a later iteration leaves the last increment in the unknowns
  (`failed_run_keeps_iterates_refuted`); norms that are nan are not noticed
  (`nan_runs_to_limit`); with Picard an additional constraint reads the initial guess
  at a local place with the global number and works only if it finds zero there
  (`picard_constraint_guess`).
* C11: if the degrees differ along a shared edge, one stored number is broadcast over
  the whole edge (`un_unequal_degrees_refuted`) or the assignment fails
  (`un_unequal_degrees_fail_refuted`); curvilinear triangles have no 2-forms
  (`un_curved_triangle_no_2form`).
* C13: edges are known by their end vertices: on a mesh closed to a ring of two elements
  different edges are merged, reversed (`un_ring_edges_distinct_refuted`).
* C56: hexahedra that traverse an edge in opposite directions do not share its numbers
  (`un_hex_direction_refuted`); the code relies on meshes that avoid this.
* C45: evaluations are remembered under the nodes rounded to five decimals; the second of
  two node sets that agree to five decimals gets the values of the first
  (`poly_cached_refuted`).
* C57: with three components the local cochain of the last component is counted from the
  end, so a local cochain of a wrong length can go unnoticed
  (`tensor_three_components_any_length`).
* C46: the text under which a space is kept is made from the orientation argument as it was
  written. `orientation='o'`, `'i'`, `None` and `'None'` all share the text of `'inner'`:
  `new('Lambda', 1, orientation='o')` returns the inner space if it exists, and otherwise
  makes an outer space that is later returned for `'inner'`
  (`space_new_orientation_refuted`, `space_inner_is_outer_refuted`).
* C46: the wedge product of an inner and an outer space asks for orientation None. It
  returns the inner space if that exists; otherwise it makes a space of orientation
  'unknown' which is from then on returned for `'inner'`, and Hodge, d, codifferential and
  trace of it raise (`space_wedge_history_refuted`, `space_wedge_spoils`,
  `space_unknown_is_stuck`).
* C46: scalar spaces on two meshes of one manifold are equal for python
  (`space_equality`), so `project_to` refuses to project between them.
* C44: `msepy` 3-D 1-forms: the finder returns the edges perpendicular to the face instead of the tangential ones
  (`face_dofs_msepy_3d_k1_refuted`, all degrees and all six faces).
* C44: `msehtt` 3-D 2-forms: with `component_wise=True` on a face y or z, `-=` is applied to a view of the cached local numbering, so later calls for
  that face without it return shifted numbers (`face_dofs_3d_k2_after_component_refuted`); on faces z it subtracts the number of x-dofs twice and
  returns negative numbers (`face_component_3d_k2_refuted`).
* C44, not modelled: `msehtt` 3-D 1-forms always raise for `component_wise=True`; the msepy boundary section extends a list by the rows of a
  two-dimensional array in 3-D; the 0-form finder of msehtt does not know "unique msepy curvilinear triangle".
* C59/C60: `orthogonal_rectangle.py`, `orthogonal_hexahedron.py` round half sizes to eight decimals before anything is computed: the Jacobian matrix is off by up to
  5e-9, and for a side below 1e-8 the Jacobian is 0 and the constructor divides by zero (`jacobian_tiny_rectangle_refuted`).
* C61: the documentation of the crazy mesh allows c in [0, 0.3]; in 3-D the mapping folds over for c above sqrt(3)/(2 pi) = 0.2757:
  at c = 0.3 the Jacobian is negative at (1/3, 1/3, 1/3) and two points have the same image (`region_crazy_3d_documented_refuted`, `region_crazy_3d_injective_refuted`).
* C61: `chaotic.py` `TotalMapping2D.mapping` does not scale by the sizes and has `c += c` for `y += c`: with c != 0 the domain is [a, a+1] x [0, 1]
  instead of the bounds (`region_chaotic_image`, `region_chaotic_bounds_refuted`).
* C61: `_Transfinite2` does not check that its curves meet in the corners; if they do not, no side is guaranteed (`region_transfinite_sides` is an equivalence).
* C62: `is_plane` compares normals at samples: a 2-D face that waves with the period of the 22 sample intervals counts as straight
  (`normal_is_plane_2d_refuted`); in 3-D the samples are on a diagonal only (`normal_is_plane_3d_refuted`).
* C62: `is_perp_plane` uses `or`: a plane whose normal has one vanishing component counts as perpendicular to an axis (`normal_perp_plane_refuted`).
  `area` takes two opposite corners as if the sides were along the axes: a square turned by 45 degrees has area 0 (`normal_area_refuted`);
  comparisons with np.isclose are relative, so small boxes far from the origin have area 0, too (`normal_area_far_refuted`).
* C63: no error found in the entries; reductions of 0- and 2-forms in msehtt have no branch for `unique curvilinear triangle` (they raise), those of
  1-forms have one.
* C64: msehtt `MM_m3n3k1.py` 93-130 and `MM_m3n3k2.py` 94-131 compute only the diagonal blocks for `unique msepy curvilinear hexahedron`, and for k = 2
  without the second term of the cofactors; on a sheared cube the mass matrix is not the inner product (`hexahedron_mass_k1_refuted`, `hexahedron_mass_k2_refuted`).
* C64: on linear meshes msepy integrates with the rule of the nodes by default (degree p): with Lobatto nodes the mass matrix of 0-forms is lumped, the integral
  of the square of a function is wrong (`lobatto_mass_refuted`). The cache key is the degree only, so `high_accuracy` is ignored after the first call (`cached_mass_refuted`).
* C65: the signature of a quadrilateral (two sums of angles, one angle, direction and length of a diagonal) does not determine it: the rectangles on a
  common diagonal all have the signature 90, 90, 90, 0, 5 (`quad_signature_refuted`), and the second one gets the Jacobian and mass matrices of the first
  (`shared_jacobian_refuted`). Mirrored triangles share (`triangle_signature_mirror_refuted`); directions are rounded to 1e-3 rad
  (`triangle_signature_turn_refuted`); sizes to 1e-5 absolutely (`rectangle_signature_tiny_refuted`).
* C66: msepy `cochain(t)` stops its search for the interval at the first time that is not later than t, which is always the first one: with three or more times
  it extrapolates from the two smallest ones (`py_interpolation_first_chord`, `py_interpolation_refuted`).
* C66: msehtt `clean(t=...)` does not update `_newest_t`: `cochain[None]` and `clean()` raise afterwards, and keep doing so after earlier times are set (`cochain_clean_at_refuted`).
  With automatic cleaning (the default, 3) setting a stored time again drops the oldest other time first (`cochain_overwrite_refuted`).
* C66: `read` looks up the signature of every element of the gathering matrix, which has all elements of the great mesh, in a dict of the elements of the form's mesh:
  forms on a part of the mesh raise KeyError (`read_part_refuted`). Signatures are rounded to 4 (3) decimals (`signature_collision_refuted`, `read_coincident_refuted`),
  and "-0.0000" differs from "0.0000" (`signature_noise_refuted`).
* C67: for periodic meshes the test field is the constant (-1, 0.5): its work along (1, 2) and its flux through (2, -1) are zero, so opposite dofs on such edges are
  taken to agree (`reversal_zero_refuted`).
* C67: of two unstructured elements of one type the one that comes first is reversed, so the local dofs of a form change sign with the numbering of the elements
  (`reversal_order_refuted`); a saved 1-form read into a mesh with another order (C66) gets wrong signs there.
* C67: 'unique curvilinear triangle' is in the priority lists, but find_local_dofs_on_face raises NotImplementedError for it (`reversal_curved_triangle_refuted`).
* C67 (not modelled): the caches of reversed incidence matrices are looked up under a key that is extended by face numbers before it is stored
  (IM_m2n2k0.py 104-120), so they never hit; only time is lost.
* C68: `___Naive_element_distribution___` compares distances with all_distances[n], the (n+1)-th: every rank takes at least one element more than its share, the last
  ranks get what is left or nothing and are then given single elements (`rank_takes_one_more`, `naive_shares_refuted`: shares 3, 3, 3, 3 become 3, 4, 4, 1).
* C68: `___master_rank_distribute___` (vtu, MeshPy) has the same step but no repair of empty ranks, so an exception is certain when the last share is less than SIZE
  (`file_last_rank_empty`, `file_distribution_refuted`), e.g. 40 elements on 8 ranks.
* C68: for msepy manifolds the last rank can get no element (`manifold_enough_refuted`: SIZE >= 9 and 4*SIZE+1 elements) -> AssertionError.
* C68: with fewer elements than ranks the code raises a str, which is a TypeError that hides the message.
* C69: the node in the middle of an edge is named by the two ends only: with two different edges between the same two nodes (annulus of two curvilinear
  quadrilaterals; also periodic meshes with two layers, of which the code warns) the split mesh is wrong without an error (`ts_two_edges_refuted`).
* C69: pixels, vtk hexahedra, tetrahedra, curvilinear triangles and msepy elements cannot be split (`ts_other_types_refuted`).
* C70: `OrthogonalHexahedron.__init__` (m3n3.py 506) sets `_bounds0 = [x0, x0 + dy]`; containment, volume and unions are wrong for boxes with different sides along x and y
  (`axis_box_contains_refuted`, `axis_box_union_refuted`); `__eq__` uses centre and sides and is not affected (`axis_box_equal`).
* C70: `OrthogonalSegment3` allows negative lengths and keeps the sign in `length`, which the union test adds up (`axis_segment_union_refuted`).
* C70: the union tests compare areas and volumes with the absolute tolerance 1e-7 although sides down to 1e-4 are accepted: a rectangle 3e-4 by 3e-4, or a box with sides 4e-3,
  is the union of an empty list (`axis_rectangle_union_refuted`, `axis_box_union_small_refuted`).
* C70: keys of equal geometries differ around zero ('-0.000000') and at the borders of rounding (`axis_keys_refuted`).
* C71: dofs are grouped by the key of their *first* geometry. A periodic dof has several; if the two forms meet them in different orders the keys differ, the dof is not found
  and the correspondence becomes incomplete (`dofcor_periodic_refuted`).
* C71: equal geometries with different keys ('0.000000' and '-0.000000') are not found for each other (`dofcor_rounding_refuted`).
* C71: `DOF_GEO_1_COPY[dof]` is the same list as `DOF_GEO_1[dof]`, so new geometries are appended twice; this has no effect on what is found (`dofcor_found` holds of the model with the double append).
* C72: `term.split` builds its new terms without the factor of the term it splits; with a factor other than 1 the solutions change (`wf_split_refuted`; `wf_split` has the exact relation).
* C72: `ode.discretize.differentiate` drops the factor of the term as well (`wf_td_differentiate_refuted`).
* C72: `_commutation_wrt_inner_and_x` of a duality pairing drops the restriction to a boundary section (`wf_commute_restricted_refuted`).
* C72: in expressions `a = - - b` is read as a = -b and `a = - + b` as a = b: only the last sign counts (`wf_double_minus_refuted`, `wf_read_signs`).
* C72: `WeakFormulation` accepts `a = b = 0` as a = b; `pde` rejects it (`wf_third_side_refuted`, `wf_pde_one_equality`).
* C72: `term.replace('f0', ...)` always raises, as a str has no `.space` (read, not modelled).
* C73: an unknown on the right-hand side of a weak formulation is left in b by `mp.ls()`; b is evaluated before solving, so the system has other solutions (`proxy_right_unknown_refuted`); nothing warns.
* C73: factors that are sums of parameters, or quotients with a quotient, are accepted when a term is built but can never be parsed by the dynamic linear system (`proxy_read_factor_refuted`).
* C73: `constant_scalar(1/2) + 1` raises: the sum is made from `float(sym_repr)` and the representation is `\\frac{1}{2}` (`proxy_real_plus_refuted`).
* C73: a term with a time derivative has no algebraic proxy (`proxy_time_derivative`); it has to be discretized first.
* C74: `T2dScalar.convection_by`, `T3dScalar.convection_by` and `T3dVector.convection_by` assert the class names `t2dVector` and `t3dVector`, which no class has: they always raise (`field_convection_refuted`). Behind it the test `if self._dv_dz:` in `T3dVector.convection_by` (line 438) is inverted.
* C74: the mesh setter of `T3dVector` takes `X[i], Y[i], X[i]` as points (line 240): derivatives are compared at points that are not in the mesh; a wrong dw/dz is accepted on every mesh (`field_mesh_vector3_refuted`).
* C74: `vector * scalar` raises though `scalar * vector` runs, since `T2dVector.__mul__` raises instead of returning NotImplemented; `2 * s` and `s * 2` raise for 3-D scalars (`field_mul_commutative_refuted`).
* C74: supplying one of two derivatives makes rot(gradient) nonzero (`field_rot_gradient_refuted`); `v.integral(t0)` is 0 for |t - t0| < 1e-8 (`field_integral_tiny_refuted`).
* C75: `MseHttTrilinearBase.__call__` checks A != B and B != C but not A != C, and the check of repeated forms in the operator compares fresh copies by identity: a term with one unknown twice is accepted. Newton then raises; evaluation and Picard raise, or, with one dof per element, silently use u instead of u*u (`squares_of_unknowns_refuted`).
* C75: `matrix(transpose=True)` in local_multilinear.py keeps the gathering matrices of the untransposed matrix (`derivative_gathering_refuted`); Newton is not affected because sums keep those of the linear part.
* C75: a nonlinear term with a known factor, or with one unknown only, makes Newton raise for every input (`newton_raises_with_known_factor`, `newton_raises_with_one_unknown`).
* C76: `current_base` (msehtt/adaptive/main.py 352-357) empties the dictionaries of AxB_ip_C, AxB_dp_C and AxB_ip_dC after a renewal, not those of T_ABC, AB_ip_dC, AdB_ip_C, AdB_ip_dC, which are keyed by the addresses in the representation of spaces: when an address is used again, the arrays of an old mesh are returned (`uncleaned_caches_refuted`).
* C76: the terms with a derivative raise for degrees that are tuples and for curved hexahedra, which (A x B, C) and (A B, C) accept (`tuples_of_degrees_raise`, `element_types_raise`); dot products raise in three dimensions (`element_array_defined`).
* C77: the velocity of `ManufacturedSolution_Hall_MHD3_3` has the divergence (cos x cos y - cos y cos z - cos x cos z) exp t, and no source of mass is given (`third_hall_incompressible_refuted`).
* C77: the force of `NullPoints` vanishes for c = 1 only (`null_points_balance`); u and B of `Conservation0` are the same field, so u x B = 0 at the start (`conservation_fields_independent_refuted`).
* C77: the concentration n of PNPNS is negative somewhere for eps = 2 with the default shift 3; its logarithm is nan (`pnpns_default_shift_refuted`).
* C77: the normal dipole takes |we1| and rescales, so that neither sign nor size of we1 has any effect (`dipole_sign_refuted`).
* C77: the velocity of the advected loop is reversed for Lx < 0 because of arctan(Ly / Lx) (`loop_velocity_left_refuted`); genpiecewise has the type of its arguments, integers truncate the values (`loop_potential_integers_refuted`).
* C78: `gmres` and `lgmres` do not treat the breakdown of the orthogonalisation: they divide by the vanishing norm if the system has fewer unknowns than `restart` (75; 90 for lgmres), or if the Krylov vectors are dependent, as for the identity (`C78_gmres_fails_refuted`, `C78_lgmres_fails_refuted`, `C78_identity_refuted`).
* C78: restart = 1 raises UnboundLocalError (`del v_jp1`); an exact guess with atol = 0 or forced maxiter divides 0 by 0, though the documentation promises convergence for norm <= atol (`C78_gmres_fails_refuted`).
* C78: maxiter = 0 returns info = 0, which means success (`C78_no_rounds_refuted`).
* C79: on a side whose direction differs in its two quadrilaterals, points at t and -t get one indicator, so that trf = 4 gives one node number to two points and joins triangles wrongly (`C79_turned_refuted`). tqr.py makes such sides wherever a triangular region meets a quadrilateral one (`C79_tqr_mixed_refuted`).
* C79: sides are identified by their two nodes; on a periodic mesh with two elements per direction four triangles share them and level two raises (`C79_torus_refuted`).
* C79: trf = k >= 2 with rcm = 'center' and the default function raises in msehtt: np.ones_like of a number is an array of dimension 0, which fails the check of types (`C79_center_refuted`).
* C79: the module-level list of boundary faces is emptied at the end of a successful run only; after an exception the next mesh is refined with the faces of the failed one (`C79_cache_refuted`).
* C80: the stream function takes one corner from the neighbouring region; for velocities that are not linear the values at other common nodes differ (`dds_jump_refuted`).
* C80: corner keys are texts with '%.7f', which writes a sign for tiny negative numbers: regions that meet at x = 0 up to rounding are not linked and streamfunction raises (`dds_sign_refuted`).
* C80: coordinates are compared with np.allclose, which is not symmetric: a - b may be defined where b - a raises (`dds_order_refuted`).
* C80: L2_norm divides the extent of every coordinate by shape[0]: on arrays that are not square the norm is wrong (`dds_l2_refuted`).
* C81: with one element in two directions of a periodic slice the dofs of 1-forms along these directions are merged (`psl_single_refuted`).
* C81: the face check warns for every slice with the default of two levels, although all forms are numbered correctly (`psl_warning_refuted`).
* C82: `math.isclose(..., abs_tol=1e-12)` keeps the default `rel_tol=1e-9`; a custom partition with positive parts can give nodes beyond 1 (`qd_cus_refuted`).
* C82: node distributions `nd@...` are not checked to increase (`qd_nd_refuted`).
* C82: `quadrature([2, 2], 'Gauss')` raises TypeError, since the key with a list is not hashable, although lists are handled below (`qd_list_refuted`).
* C82: a coded category beside a custom one, as in `Quadrature((2, 1), ('Gauss', 'nd@-1=1'))`, is refused although all later code treats every axis by itself (`qk_mixed_refuted`).
* C82: `CUS-NODES@` partitions are split at every '-', so a part written as 1e-05 counts as two (`qk_exponent_refuted`).
* C83: lines at a small angle count as parallel or not depending on how far apart the points are that give them (`sg_crossing_refuted`).
* C83: a point 5e-5 off a unit segment is accepted with `abs_tol=1e-8`, since the tolerance is on the sum of distances (`sg_points_refuted`).
* C83: a part of a nearly vertical segment can have a key of the other kind (`ss:inf...`), so that the search by group keys in the dof correspondence misses it although it is contained (`sg_keys_refuted`).
* C83: overlaps of at most 1e-3 make `find_intersection_of_two_parallel_straight_segments` raise (`sg_overlap`).
* C84: `Polygon2.whether_contain__input__as_a_part_of_same_type` looks at vertices only, so a concave polygon contains its convex hull (`sgp_contained_refuted`).
* C84: points cannot be tested in polygons with an edge not longer than 1e-3: the constructor of the edge raises (`sgp_short_refuted`).
* C84: `union` and `intersection` take over `exterior.coords`, whose last vertex repeats the first; such a polygon has no last edge, and points that are on no other edge make the test raise (`sgp_ring_refuted`).
* C84: polygons that differ in the first vertex only are not equal (`sgp_equal_refuted`).

## Axioms

`Print Assumptions` prints "Closed under the global context" for every property
theorem, except those about real numbers (`PolyProps`, `TensorProps`, `FaceProps`, `TriProps`, `MappingProps`, `JacobianProps`, `RegionProps`, `NormalProps`, `ReduceProps`, `MassProps`, `SignatureProps`, `CochainProps`, `ReversalProps`, `SplitProps`, `WfProps`, `ProxyProps`, `FieldProps`, `NlProps`, `TermProps`, `SampleProps`, `GmresProps`, `QdProps`, `SgProps`, `SgPolyProps`). They use some of
the axioms of the standard library on which its real numbers and Coquelicot rest, and no
others:

* `ClassicalDedekindReals.sig_not_dec`, `ClassicalDedekindReals.sig_forall_dec`
* `FunctionalExtensionality.functional_extensionality_dep`
* `Classical_Prop.classic`

`coqchk` lists these and, because the definitions of the real numbers are sealed in a
module, `Rdefinitions.RbaseSymbolsImpl.*` and `RinvImpl.*` (and `ssrunder.Under_rel.*` of
ssreflect, loaded by Coquelicot).

{"id": "C01", "title": "IGAAxisSetKnots accepts exactly the valid open/periodic knot vectors", "statement": "IGAAxisSetKnots(axis,m,U) succeeds if and only if the degree p has been set (p>=1), m>=2p+1, U[0..m] is nondecreasing, and no value occurs more than p times among U[1..m-1]; on success the axis stores exactly those m+1 knots, on failure the axis is unchanged.", "quantifier": "all degrees p, all m, all knot arrays", "why_tests_cant": "The set of knot arrays is infinite; tests sample a few accepted and rejected arrays and cannot show the acceptance test is exact.", "anchors": ["src/petigaaxis.c:IGAAxisSetKnots", "src/petigaaxis.c:IGA_NextKnot"]}
{"id": "C02", "title": "IGAAxisGetSpans lists exactly the nonempty elements, in order", "statement": "After knots are set, the spans of an axis are exactly the indices k with p<=k<=m-p-1 and U[k]<U[k+1], each once and in increasing order; their number is the number of elements. Consecutive spans share their knot value (U[span[i]+1]=U[span[i+1]]), so the elements cover the parametric domain [U[p],U[m-p]] without gap or overlap.", "quantifier": "all knot vectors, all degrees, any repeated knots", "why_tests_cant": "Repeated-knot patterns are unbounded; an off-by-one only shows on particular multiplicity patterns.", "anchors": ["src/petigaaxis.c:IGAAxisGetSpans", "src/petigaaxis.c:IGA_NextKnot"]}
{"id": "C03", "title": "IGAAxisInitUniform builds the requested discretisation", "statement": "For p>=1, N>=1, Ui<Uf and 0<=C<p (or C=PETSC_DECIDE meaning p-1) a non-periodic IGAAxisInitUniform yields a knot vector accepted by IGAAxisSetKnots, with N elements, breakpoints Ui+i(Uf-Ui)/N, end knots repeated p+1 times, each interior breakpoint repeated exactly p-C times, and N(p-C)+C+1 basis functions; any other argument combination is rejected.", "quantifier": "all p, N, C, Ui, Uf", "why_tests_cant": "p, N and C are unbounded integers.", "anchors": ["src/petigaaxis.c:IGAAxisInitUniform"]}
{"id": "C04", "title": "Periodic uniform axes are periodic knot vectors", "statement": "On a periodic axis IGAAxisInitUniform produces knots with U[i+nnp]=U[i]+(Uf-Ui) for every i for which both sides are knots, where nnp=N(p-C) is the number of degrees of freedom reported; the knots remain nondecreasing and acceptable to IGAAxisSetKnots.", "quantifier": "all p, N, C, Ui, Uf (including N smaller than the wrap-around length)", "why_tests_cant": "When N is small the wrap loop reads entries it has just written; only a proof covers all N versus C combinations.", "anchors": ["src/petigaaxis.c:IGAAxisInitUniform", "src/petigaaxis.c:IGAAxisSetUp"]}
{"id": "C05", "title": "Reported number of basis functions is consistent and positive", "statement": "After a successful IGAAxisSetKnots the number of nodes nnp is m-p on a non-periodic axis and m-p-1-C on a periodic one, where C=p-s and s is the multiplicity at the right end of the domain counted from index m-p; 1<=nnp<=m-p always, and IGAAxisSetUp recomputes the same value that IGAAxisInitUniform stored.", "quantifier": "all accepted knot vectors, both periodicities", "why_tests_cant": "Requires ranging over all knot vectors.", "anchors": ["src/petigaaxis.c:IGAAxisSetKnots", "src/petigaaxis.c:IGAAxisSetUp", "src/petigaaxis.c:IGAAxisInitUniform"]}
{"id": "C06", "title": "Every accepted knot vector has at least one element", "statement": "Whenever IGAAxisSetKnots accepts a knot vector, the axis has at least one nonempty element (otherwise setup divides by / indexes an empty span list).", "quantifier": "all accepted knot vectors", "why_tests_cant": "The counterexamples are degenerate knot vectors no test supplies.", "anchors": ["src/petigaaxis.c:IGAAxisSetKnots", "src/petigaaxis.c:IGAAxisGetSpans"]}
{"id": "C07", "title": "A failed IGAAxisInit leaves the axis usable as before", "statement": "If IGAAxisInit(axis,p,m,U) returns an error, the axis still describes the same degree and knots it had before the call.", "quantifier": "all axis states, all arguments", "why_tests_cant": "Failure atomicity has to hold for each reachable prior state and each failing argument.", "anchors": ["src/petigaaxis.c:IGAAxisInit", "src/petigaaxis.c:IGAAxisSetDegree", "src/petigaaxis.c:IGAAxisSetKnots"]}
{"id": "C08", "title": "Process grids multiply to the communicator size", "statement": "Whenever IGA_Partition succeeds, the per-direction process counts are >=1, their product equals the communicator size, counts fixed by the user are kept, and no direction has more processes than elements. This holds for whatever value the floating-point square/cube root guess takes.", "quantifier": "all sizes, element counts, user-fixed counts, all roundings of sqrt/pow", "why_tests_cant": "Depends on all integers and on floating-point rounding of sqrt/pow on each platform.", "anchors": ["src/petigapart.c:IGA_Partition", "src/petigapart.c:IGA_Part2D", "src/petigapart.c:IGA_Part3D"]}
{"id": "C09", "title": "Rank to process-grid coordinates is a bijection", "statement": "IGA_Partition gives distinct ranks distinct grid coordinates, each coordinate within its direction's count, and each coordinate tuple belongs to some rank.", "quantifier": "all ranks, all process grids, dim 1..3", "why_tests_cant": "Needs all rank/grid combinations.", "anchors": ["src/petigapart.c:IGA_Partition"]}
{"id": "C10", "title": "IGA_Distribute tiles and balances", "statement": "IGA_Distribute splits 0..N-1 into size consecutive blocks: block starts are the running sums of block sizes, every index belongs to exactly one block, and any two block sizes differ by at most one.", "quantifier": "all N, all sizes, all ranks", "why_tests_cant": "Integer-division arithmetic over all sizes.", "anchors": ["src/petigapart.c:IGA_Distribute", "src/petigapart.c:IGA_Dist1D"]}
{"id": "C11", "title": "Every element is assembled by exactly one process", "statement": "For any dim, element counts and process grid accepted by setup, each global element (tuple of per-direction element indices) is visited by the element iterator of exactly one rank, exactly once.", "quantifier": "all dims, sizes, process counts, processes", "why_tests_cant": "Needs every process count and mesh size at once.", "anchors": ["src/petiga.c:IGASetUp_Stage1", "src/petigaelem.c:IGABeginElement", "src/petigaelem.c:IGANextElement", "src/petigapart.c:IGA_Distribute"]}
{"id": "C12", "title": "Every degree of freedom is owned by exactly one process", "statement": "After IGASetUp (default quadrature discretisation, knots whose first and last domain intervals are nonempty), the per-direction ranges of owned nodes of successive processes are nonempty and tile 0..nnp-1, for periodic and non-periodic axes; hence each node is owned by exactly one rank.", "quantifier": "all knot vectors, periodicities, process counts", "why_tests_cant": "Ranges over all multiplicity patterns and process counts.", "anchors": ["src/petiga.c:IGASetUp_Stage1"]}
{"id": "C13", "title": "Ghosted local range covers every local element's nodes and all owned nodes", "statement": "The local (ghosted) index range of a process contains every basis function that is nonzero on any of its elements and contains every node it owns.", "quantifier": "all knot vectors, periodicities, process counts", "why_tests_cant": "Ranges over all multiplicity patterns and process counts.", "anchors": ["src/petiga.c:IGASetUp_Stage1", "src/petigaelem.c:IGAElementBuildClosure"]}
{"id": "C14", "title": "Owned nodes are always locally visible, without assumptions on the knots", "statement": "For every knot vector accepted by IGAAxisSetKnots on a non-periodic axis, each owned node lies in its owner's ghosted range.", "quantifier": "all accepted knot vectors", "why_tests_cant": "The violating knot vectors are unclamped vectors with an empty last domain interval, which no test uses.", "anchors": ["src/petiga.c:IGASetUp_Stage1", "src/petigaaxis.c:IGAAxisSetKnots"]}
{"id": "C15", "title": "Natural-to-global numbering is a permutation that is contiguous per rank", "statement": "The global numbering created for a grid is a permutation of 0..N-1: rank r owns the consecutive global indices from its layout offset, and every natural (lexicographic) index corresponds to exactly one global index.", "quantifier": "all grids, all rank boxes that tile the grid", "why_tests_cant": "All decompositions of all grid sizes.", "anchors": ["src/petigagrid.c:IGA_Grid_GetAO", "src/petigagrid.c:IGA_Grid_LocalIndices", "src/petigagrid.c:IGA_Grid_GetLayout"]}
{"id": "C16", "title": "Local-to-global map addresses the right node, including periodic wrap-around", "statement": "Each local (ghosted) index maps to the global number of the node whose natural coordinates are the local coordinates wrapped modulo the grid size; the result is always a valid global index and is never negative, provided the ghost layer below zero is no wider than the grid.", "quantifier": "all ghosted boxes, periodic or not", "why_tests_cant": "All ghost widths and grid sizes.", "anchors": ["src/petigagrid.c:IGA_Grid_GhostIndices", "src/petigagrid.c:IGA_Grid_GetLGMap"]}
{"id": "C17", "title": "Vector transfers round-trip", "statement": "Global->natural->global returns the original vector, and natural->global->natural too when no axis is periodic (on periodic axes, for vectors whose periodic copies agree); global->local followed by local->global with INSERT returns the original global vector; local->global with ADD yields at each node the sum of all local copies of that node on all ranks.", "quantifier": "all vectors, all decompositions", "why_tests_cant": "All decompositions, all data.", "anchors": ["src/petigavec.c:IGAGlobalToLocal", "src/petigavec.c:IGALocalToGlobal", "src/petigavec.c:IGANaturalToGlobal", "src/petigagrid.c:IGA_Grid_NewScatter"]}
{"id": "C18", "title": "The element iterator enumerates the local box and then stops", "statement": "IGABeginElement followed by IGANextElement until it returns false visits the local elements in lexicographic order with ID[] equal to the element's tensor coordinates, exactly width[0]*width[1]*width[2] times; afterwards IGAEndElement succeeds.", "quantifier": "all widths and starts in 1-3 dimensions", "why_tests_cant": "Unbounded widths.", "anchors": ["src/petigaelem.c:IGABeginElement", "src/petigaelem.c:IGANextElement"]}
{"id": "C19", "title": "Boundary forms are visited exactly on enabled domain faces", "statement": "For each element, IGAElementNextForm visits exactly once each face (axis,side) that was enabled with IGASetBoundaryForm and on which the element is the first/last one, i.e. touches the end of the parametric domain, and then the element interior exactly once, then stops.", "quantifier": "all element positions, all visit flags", "why_tests_cant": "All positions, all mesh sizes and all flag combinations.", "anchors": ["src/petigaelem.c:IGAElementNextForm", "src/petigaform.c:IGAFormSetBoundaryForm"]}
{"id": "C20", "title": "Element closure addresses the right local nodes", "statement": "The element's local mapping lists, in tensor order, the local indices of exactly the basis functions supported on it; all entries lie inside the local ghosted vector, are pairwise distinct, and composing with the local-to-global map gives the nodes' wrapped natural coordinates.", "quantifier": "all elements, dims, degrees, decompositions", "why_tests_cant": "Index arithmetic over all degrees/sizes.", "anchors": ["src/petigaelem.c:IGAElementBuildClosure", "src/petigagrid.c:IGA_Grid_GhostIndices"]}
{"id": "C21", "title": "Assembly does not depend on the number of processes", "statement": "A vector assembled by summing per-element contributions over all ranks equals, node by node in natural ordering, the serial sum of the contributions of all elements; it is therefore the same for every process grid.", "quantifier": "all element contributions, all process grids", "why_tests_cant": "All meshes and decompositions and all integrands at once.", "anchors": ["src/petigaksp.c:IGAComputeVector", "src/petigaelem.c:IGAElementAssembleVec", "src/petiga.c:IGASetUp_Stage1"]}
{"id": "C22", "title": "Boundary value table: last write per field wins, others untouched", "statement": "After any sequence of IGASetBoundaryValue/IGASetBoundaryLoad calls, the condition on (axis,side,field) is the value of the last accepted call for it, absent if none; out of range axis/side/field is rejected and changes nothing; the table never exceeds its 64 slots; IGAFormClearBoundary removes only the given face.", "quantifier": "all call sequences", "why_tests_cant": "All histories.", "anchors": ["src/petigaform.c:IGAFormSetBoundaryValue", "src/petigaform.c:IGAFormBCSetEntry", "src/petigaform.c:IGAFormClearBoundary"]}
{"id": "C23", "title": "Each constrained degree of freedom is fixed once with the right value", "statement": "On every element the list of fixed degrees of freedom contains each constrained local dof exactly once; its value is the one given by the boundary condition processed last (or by the fix table if set); unconstrained dofs are not in it; and the list never outgrows the element's nen*dof slots.", "quantifier": "all elements, all condition tables", "why_tests_cant": "All tables/elements.", "anchors": ["src/petigaelem.c:IGAElementBuildFix", "src/petigaelem.c:AddFixa"]}
{"id": "C24", "title": "Dirichlet elimination in IGAElementFixSystem preserves the solution", "statement": "For any element system K u = F and any fixed values, after IGAElementFixSystem a vector u that takes the prescribed values satisfies the modified free rows iff it satisfies the original free rows, and every modified fixed row reads u=value; symmetric K stays symmetric.", "quantifier": "all matrices, right-hand sides, sets of fixed dofs, sizes", "why_tests_cant": "All matrices of all sizes.", "anchors": ["src/petigaelem.c:IGAElementFixSystem"]}
{"id": "C25", "title": "Residual and Jacobian boundary treatment are consistent", "statement": "IGAElementFixFunction makes the residual of a fixed dof equal to (current value - prescribed value) and leaves the others; IGAElementFixJacobian makes its row and column those of the identity; for an affine residual evaluated at the fixed state the fixed Jacobian is exactly the derivative of the fixed residual.", "quantifier": "all element residuals/Jacobians", "why_tests_cant": "All matrices of all sizes.", "anchors": ["src/petigaelem.c:IGAElementFixFunction", "src/petigaelem.c:IGAElementFixJacobian", "src/petigaelem.c:IGAElementFixValues"]}
{"id": "C26", "title": "Preallocated sparsity contains every element coupling", "statement": "For a non-periodic axis, whenever two basis functions A and B are both nonzero on some element, B is in the preallocated column range of row A; so assembling element matrices never hits a new nonzero location (which is configured to be an error).", "quantifier": "all knot vectors, all pairs of basis functions", "why_tests_cant": "All multiplicity patterns.", "anchors": ["src/petigamat.c:Stencil", "src/petigamat.c:IGACreateMat"]}
{"id": "C27", "title": "Preallocated sparsity for periodic axes", "statement": "For a periodic axis with periodic knots, whenever two (wrapped) basis functions share an element the coupling, up to wrap-around, is in the preallocated column range of the row.", "quantifier": "all periodic knot vectors", "why_tests_cant": "All multiplicity patterns and wrap-arounds.", "anchors": ["src/petigamat.c:Stencil"]}
{"id": "C28", "title": "Row stencil never exceeds its work buffer", "statement": "The number of columns generated for a row is at most the product of (2p+1) over directions, the size of the allocated index buffer, for all knot vectors.", "quantifier": "all knot vectors, degrees, rows", "why_tests_cant": "Buffer overflow on unusual knots.", "anchors": ["src/petigamat.c:Stencil", "src/petigamat.c:ColumnIndices", "src/petigamat.c:IGACreateMat"]}
{"id": "C29", "title": "Knot span search is correct and terminates", "statement": "On an axis whose first and last domain intervals are nonempty, IGA_FindSpan returns, for every u in the domain [U[p],U[n+1]], an index k with p<=k<=n of a nonempty span with U[k]<=u<U[k+1] (k=n and u=U[n+1] at the right end). It terminates for every u and every array, and reads only U[p..n+1].", "quantifier": "all knot vectors, all u", "why_tests_cant": "Binary search on all knot arrays and all reals.", "anchors": ["src/petigabasis.c:IGA_FindSpan"]}
{"id": "C30", "title": "B-spline evaluation equals the Cox-de Boor definition", "statement": "In exact arithmetic the p+1 values returned for a span and a point are the Cox-de Boor B-spline functions of degree p at that point; they are nonnegative and sum to one.", "quantifier": "all degrees, knot vectors, spans, points", "why_tests_cant": "All degrees and knots; tests sample points.", "anchors": ["src/petigabsb.f90.in:IGA_Basis_BSpline", "src/petigabsp.F90:IGA_Basis_BSpline"]}
{"id": "C31", "title": "B-spline derivatives are the derivatives of the B-spline values", "statement": "The order-k values returned by basis evaluation are the k-th derivatives with respect to the parameter of the order-0 values, for all k up to the requested order (zero when k>p).", "quantifier": "all degrees, knots, derivative orders, points", "why_tests_cant": "All degrees; finite differences only test approximately at points.", "anchors": ["src/petigabsb.f90.in:IGA_Basis_BSpline"]}
{"id": "C32", "title": "Lagrange basis interpolates", "statement": "The Lagrange basis used for IGA_BASIS_LAGRANGE/SPECTRAL satisfies L_i(x_j)=delta_ij at its nodes, sums to one, and the order 1..3 values are the derivatives of the order-0 values.", "quantifier": "all degrees, all distinct nodes, all points", "why_tests_cant": "All degrees and nodes.", "anchors": ["src/petigalgb.f90.in", "src/petigabsp.F90:IGA_Basis_Lagrange", "src/petigabsp.F90:IGA_Basis_Spectral"]}
{"id": "C33", "title": "NURBS rationalisation obeys the quotient rule", "statement": "Given weights w and B-spline values with derivatives, the rational functions returned are R_i=w_i N_i/sum_j w_j N_j and their order 1, 2 and 3 derivatives are those of this quotient; the R_i sum to one and their derivatives sum to zero.", "quantifier": "all dims, numbers of functions, weights, points", "why_tests_cant": "All weights and dims.", "anchors": ["src/petigarat.f90.in:Rationalize"]}
{"id": "C34", "title": "Inverse geometry map is the inverse", "statement": "When the Jacobian determinant is nonzero the returned inverse matrix times the Jacobian is the identity (dim 1-3), the determinant is the determinant, and the second and third order inverse-map derivatives satisfy the implicit differentiation identities.", "quantifier": "all Jacobians and higher derivatives in dims 1-3", "why_tests_cant": "All real matrices.", "anchors": ["src/petigainv.f90.in", "src/petigadet.f90.in", "src/petigamapinv.f90.in"]}
{"id": "C35", "title": "Physical derivatives of shape functions follow the chain rule", "statement": "Shape-function derivatives of order 1-3 in physical space equal those obtained by the chain rule from parametric derivatives and inverse-map derivatives; consequently the physical gradient of an isoparametric coordinate field is the identity.", "quantifier": "all maps with nonzero Jacobian", "why_tests_cant": "All real geometries.", "anchors": ["src/petigamapshf.f90.in", "src/petigamapgeo.f90.in"]}
{"id": "C36", "title": "Quadrature tables are accurate", "statement": "For each supported size the Gauss-Legendre and Gauss-Lobatto tables have positive weights summing to 2, symmetric points in [-1,1], and integrate every polynomial up to degree 2q-1 (2q-3 for Lobatto) with an error at most 1e-13 times the sum of absolute coefficients.", "quantifier": "all polynomials up to the exactness degree, all table sizes", "why_tests_cant": "All polynomials; a test integrates a few.", "anchors": ["src/petigarule.c:IGA_Rule_GaussLegendre", "src/petigarule.c:IGA_Rule_GaussLobatto"]}
{"id": "C37", "title": "Element quadrature maps the rule affinely and integrates the whole domain", "statement": "Quadrature points of element e lie in its knot interval, its weights sum (times the element Jacobian) to the interval length, so that summing over all elements of all ranks gives the domain's length, and every polynomial integrated exactly by the reference rule is integrated exactly per element.", "quantifier": "all knot vectors, rules, elements, process counts", "why_tests_cant": "All meshes.", "anchors": ["src/petigabasis.c:IGABasisInitQuadrature", "src/petigarule.c"]}
{"id": "C38", "title": "IGASetUp reports an error until setup really succeeded", "statement": "If IGASetUp fails, calling it again without changing anything does not report success.", "quantifier": "all configurations, call histories", "why_tests_cant": "A history property including failing calls.", "anchors": ["src/petiga.c:IGASetUp", "src/petiga.c:IGASetUp_Stage1"]}
{"id": "C39", "title": "A quadrature rule is never silently wrong", "statement": "If IGARuleSetSize/IGARuleSetType+IGARuleSetUp fails because no rule of that size exists, later IGARuleSetUp calls also fail rather than succeed with uninitialised points and weights.", "quantifier": "all call sequences on a rule", "why_tests_cant": "A history property including failing calls.", "anchors": ["src/petigarule.c:IGARuleSetUp", "src/petigarule.c:IGARuleSetSize"]}
{"id": "C40", "title": "Repeated setup is idempotent for reduced rules", "statement": "Initialising a basis twice from the same axis and rule gives the same number of quadrature points.", "quantifier": "all rules, axes, number of setups", "why_tests_cant": "History property.", "anchors": ["src/petigabasis.c:IGABasisInitQuadrature"]}
{"id": "C41", "title": "Save then load restores the geometry", "statement": "IGASave followed by IGALoad restores dimension, degrees, knots, control points and weights exactly (exact arithmetic, nonzero weights), for every number of writing and reading processes.", "quantifier": "all discretisations and geometries, all process counts", "why_tests_cant": "All geometries.", "anchors": ["src/petigaio.c:IGASave", "src/petigaio.c:IGALoad", "src/petigaio.c:IGALoadGeometry", "src/petigaio.c:IGASaveGeometry"]}
{"id": "C42", "title": "Save then load restores periodicity", "statement": "IGASave followed by IGALoad into a fresh IGA restores the number of degrees of freedom of every axis.", "quantifier": "all discretisations, periodic or not", "why_tests_cant": "Needs all discretisations; the loss occurs only on periodic axes.", "anchors": ["src/petigaio.c:IGASave", "src/petigaio.c:IGALoad", "src/petigaaxis.c:IGAAxisSetPeriodic"]}
{"id": "C43", "title": "IGAElementGetIndices returns the element's row and column maps", "statement": "IGAElementGetIndices returns the row map in its row arguments and the column map in its column arguments.", "quantifier": "all elements, all combinations of requested outputs", "why_tests_cant": "The faulty path is only reached when the row map pointer is requested; no test does.", "anchors": ["src/petigaelem.c:IGAElementGetIndices"]}
{"id": "C44", "title": "IGACreateCoordinates returns each node's coordinates", "statement": "In the coordinate vector created for solvers, the nsd entries of node a are the nsd coordinates of control point/collocation point a, for every space dimension.", "quantifier": "all geometries, dims, node numbers", "why_tests_cant": "All node numbers/dims; wrong entries look plausible.", "anchors": ["src/petigansp.c:IGACreateCoordinates"]}
{"id": "C45", "title": "Field index sets select exactly one field", "statement": "The index sets created by DMCreateFieldDecomposition for an IGA DM partition, on each process, the owned global dof indices by field: field i's set is {b*dof+i : b owned block}.", "quantifier": "all dof counts, all ranks and ownership ranges", "why_tests_cant": "All ranks; the error is invisible on rank 0.", "anchors": ["src/petigadm.c:DMCreateFieldIS_IGA", "src/petigadm.c:DMCreateSubDM_IGA"]}
{"id": "C46", "title": "Basis-block preconditioner blocks cover every owned node", "statement": "In the basis-by-basis block preconditioner each owned node of each process belongs to at least one block, for each overlap.", "quantifier": "all overlaps, process counts, ranges", "why_tests_cant": "All process counts/overlaps; serial tests pass.", "anchors": ["src/petigapcb.c:PCSetUp_BBB"]}
{"id": "C47", "title": "Finite-difference Jacobians are exact for affine residuals", "statement": "In exact arithmetic IGAFormIJacobianFD and variants return dF/dU + shift*dF/dV (+ a*dF/dA) exactly whenever the residual is affine in its arguments, and leave the input vectors unchanged.", "quantifier": "all sizes, all affine residuals, all step sizes h<>0, shifts", "why_tests_cant": "All residuals.", "anchors": ["src/petigafdjac.c:IGAFormIJacobianFD", "src/petigafdjac.c:IGAFormJacobianFD", "src/petigafdjac.c:IGAFormI2JacobianFD"]}
{"id": "C48", "title": "Multigrid coarsening terminates with dividing factors", "statement": "Each coarsening step divides every direction by a factor that divides its size exactly; whenever a step is reported, the total size strictly decreases, so the number of levels is finite.", "quantifier": "all sizes, degrees, dims", "why_tests_cant": "All sizes.", "anchors": ["src/petigapcmg.c:CoarsenFactor", "src/petigapcmg.c:ComputeCoarsenLevels"]}
{"id": "C49", "title": "Work vectors are never handed out twice", "statement": "IGAGetLocalVecArray/IGAGetLocalVec pool: under any sequence of get/restore calls two outstanding vectors are distinct, restoring makes the vector reusable, and the pool never exceeds its 16 slots.", "quantifier": "all call sequences", "why_tests_cant": "All histories.", "anchors": ["src/petigavec.c:IGAGetLocalVec", "src/petigavec.c:IGARestoreLocalVec"]}
{"id": "C50", "title": "Point evaluation locates the owning process consistently", "statement": "IGAProbeSetPoint finds a process owning the element containing the point for every point of the domain (the search never fails on all processes), and in collective mode all processes evaluate on the same owner.", "quantifier": "all points, decompositions", "why_tests_cant": "All points and decompositions.", "anchors": ["src/petigaprobe.c:IGAProbeSetPoint"]}
{"id": "C51", "title": "Domain integrals are sums over all elements and points exactly once", "statement": "IGAComputeScalar returns the sum over all elements and all quadrature points of integrand*detJac*weight, each exactly once, independent of the number of processes.", "quantifier": "all integrands, process grids", "why_tests_cant": "All process grids.", "anchors": ["src/petigacomp.c:IGAComputeScalar", "src/petigapoint.c:IGAPointAddArray"]}
{"id": "C52", "title": "Matrix view/load round-trips through natural ordering", "statement": "Viewing a parallel IGA matrix in binary (natural ordering) and loading it back yields the same matrix, for each permutation between natural and global ordering.", "quantifier": "all matrices, all decompositions", "why_tests_cant": "All decompositions.", "anchors": ["src/petigamat.c:MatView_MPI_IGA", "src/petigamat.c:MatLoad_MPI_IGA"]}
{"id": "C53", "title": "Drawing samples are evaluated on the owning process", "statement": "For every process and every visualisation grid point assigned to it, the non-collective probe finds the point on that process; per-direction draw widths tile the draw grid.", "quantifier": "all meshes, resolutions, process counts", "why_tests_cant": "All decompositions.", "anchors": ["src/petigadraw.c:IGACreateDrawDM", "src/petigadraw.c:IGADrawVec"]}
{"id": "C54", "title": "Boundary normals are unit, orthogonal to the face and outward", "statement": "On a boundary face with nonsingular map the computed normal has unit length, is orthogonal to the tangent vectors of the face, and flips sign between the two sides.", "quantifier": "all nonsingular Jacobians, dims 2-3", "why_tests_cant": "All real maps.", "anchors": ["src/petigaval.F90:IGA_GetNormal"]}
{"id": "C55", "title": "The span found for a domain point is never empty", "statement": "For every accepted knot vector with at least one element and every point of its domain, IGA_FindSpan returns a nonempty span (basis evaluation divides by its length).", "quantifier": "all accepted knot vectors, all domain points", "why_tests_cant": "Only unclamped vectors with a repeated knot at the domain ends violate it.", "anchors": ["src/petigabasis.c:IGA_FindSpan", "src/petigaaxis.c:IGAAxisSetKnots"]}
{"id": "C56", "title": "An automatic process grid is found whenever one fits", "statement": "If the user fixes no process counts and some factorisation of the communicator size has no more processes than elements in each direction, IGASetUp succeeds in choosing a process grid.", "quantifier": "all sizes and element counts, 2D and 3D", "why_tests_cant": "The failing 3D sizes are sparse (e.g. 3x4x9 elements on 60 processes).", "anchors": ["src/petigapart.c:IGA_PART2D", "src/petigapart.c:IGA_PART3D", "src/petigapart.c:IGA_Partition"]}
{"id": "C57", "title": "Collocation layout: points tile, ghosts cover their stencils", "statement": "With IGASetUseCollocation the collocation points owned by successive processes tile 0..nnp-1; the local range of a process contains every basis function active at each of its Greville points, and each node it owns.", "quantifier": "all knot vectors, periodicities, process counts", "why_tests_cant": "Depends on where Greville abscissae fall among non-uniform knots.", "anchors": ["src/petiga.c:IGASetUp_Stage1", "src/petigabasis.c:IGA_Greville", "src/petigabasis.c:IGA_FindSpan"]}
{"id": "C58", "title": "Collocation layout: owned geometry nodes are locally visible", "statement": "With IGASetUseCollocation each geometry node owned by a process lies in the process's ghosted geometry range (IGAGlobalToNatural and geometry scatters fill their index arrays only from it).", "quantifier": "all knot vectors, periodicities, process counts", "why_tests_cant": "Only non-uniform periodic axes of degree >= 4 violate it.", "anchors": ["src/petiga.c:IGASetUp_Stage1", "src/petigagrid.c:IGA_Grid_NewScatterApp"]}
{"id": "C59", "title": "A finished element loop stays finished", "statement": "After IGANextElement has returned false, further calls keep returning false until IGABeginElement is called again.", "quantifier": "all iterator states", "why_tests_cant": "Only a caller that calls once more (nested or retried loops) notices.", "anchors": ["src/petigaelem.c:IGANextElement"]}
{"id": "C60", "title": "No boundary forms on periodic directions", "statement": "Boundary forms enabled with IGASetBoundaryForm on a periodic axis are either rejected or never visited (a periodic direction has no boundary).", "quantifier": "all axes, all visit flags", "why_tests_cant": "The extra boundary integral silently changes results without an error.", "anchors": ["src/petigaform.c:IGASetBoundaryForm", "src/petigaelem.c:IGAElementNextForm"]}
{"id": "C61", "title": "All elements agree on constrained dofs", "statement": "Whether a degree of freedom is constrained by IGASetBoundaryValue/IGASetFixTable, and its value, depends only on the node's position in the grid: every element and process coupling the node computes the same answer.", "quantifier": "all axes, tables, elements and nodes", "why_tests_cant": "Disagreement would only show where particular elements meet (corners, process boundaries).", "anchors": ["src/petigaelem.c:IGAElementBuildFix", "src/petigaform.c:IGASetFixTable"]}
{"id": "C62", "title": "Collocation: the linear path honours the fix table", "statement": "With IGASetUseCollocation the value imposed at a constrained dof by IGAComputeSystem is the one IGASetFixTable gives, as it is for IGAComputeFunction.", "quantifier": "all tables and collocation points", "why_tests_cant": "Both paths run without error; the solution is just that of different boundary data.", "anchors": ["src/petigaelem.c:IGAElementFixSystem", "src/petigaelem.c:IGAElementBuildFix"]}
{"id": "C63", "title": "Boundary values and loads on periodic directions have no effect", "statement": "IGASetBoundaryValue/Load on a periodic axis does not constrain or load any degree of freedom.", "quantifier": "all axes and tables", "why_tests_cant": "The seam is not a boundary; an accidental constraint only shows as a wrong solution.", "anchors": ["src/petigaelem.c:IGAElementBuildFix", "src/petigaelem.c:IGAElementFixSystem"]}
{"id": "C64", "title": "Basis values are defined at every contributing quadrature point", "statement": "After setup, at every quadrature point of every element whose weight is not zero, the stored basis function values and derivatives are those of the element's basis functions at that point, for the predefined rules and for rules supplied with IGARuleSetRule.", "quantifier": "all knot vectors, degrees, rules (including user rules with weights of any sign), elements and points", "why_tests_cant": "A test uses the predefined rules; reading uninitialised memory can pass by accident.", "anchors": ["src/petigabasis.c:IGABasisInitQuadrature", "src/petigarule.c:IGARuleSetRule"]}
{"id": "C65", "title": "Boundary basis values", "statement": "For every knot vector accepted by IGAAxisSetKnots the values stored for the two ends of the domain (used by boundary forms) are the basis functions and derivatives there; for open knot vectors only the first/last function is nonzero.", "quantifier": "all accepted knot vectors, degrees", "why_tests_cant": "Knot vectors whose first interval is empty are accepted but rarely tried.", "anchors": ["src/petigabasis.c:IGABasisInitQuadrature", "src/petigabsb.f90.in:BSplineBasisFunsDers"]}
{"id": "C66", "title": "Fourth derivatives are derivatives", "statement": "IGASetOrder accepts order 4; the fourth derivatives then available at the points (basis, rational basis, basis mapped to the geometry) are the fourth derivatives of the corresponding functions.", "quantifier": "all basis types, degrees, weights and geometries", "why_tests_cant": "Order 4 is rarely requested; a wrong zero gives a solution, only of another equation.", "anchors": ["src/petiga.c:IGASetOrder", "src/petigalgb.f90.in", "src/petigarat.f90.in", "src/petigamapshf.f90.in"]}
{"id": "C67", "title": "Nodal bases are continuous across elements", "statement": "With IGA_BASIS_LAGRANGE or IGA_BASIS_SPECTRAL, IGASetUp fails exactly for knot vectors with a knot value repeated fewer than p times; when it succeeds, neighbouring elements share exactly one function and the field of any coefficient vector has the same value from both elements at their common end.", "quantifier": "all knot vectors, degrees and coefficients", "why_tests_cant": "Depends on how multiplicities and element offsets interact for arbitrary knots.", "anchors": ["src/petigabasis.c:IGABasisInitQuadrature", "src/petigalgb.f90.in"]}
{"id": "C68", "title": "Tensor-product values and derivatives", "statement": "At a point the basis arrays obtained with IGAPointGetBasisFuns hold, for every element function, the product of the one-dimensional functions and all its mixed partial derivatives up to the order set (4 at most), in any of the 1, 2 or 3 dimensions.", "quantifier": "all dimensions, degrees, points and orders", "why_tests_cant": "Mixed high-order derivatives need exact reference values for arbitrary degrees.", "anchors": ["src/petigaelem.c:IGAElementBuildTabulation", "src/petiga2d.F90:IGA_BasisFuns_2D"]}
{"id": "C69", "title": "Field evaluation", "statement": "IGAPointFormValue/Grad/Hess/Del2/Der3 return the value, gradient, Hessian, Laplacian and third derivatives at the point of the field whose element coefficients are given, for every number of components.", "quantifier": "all coefficients, numbers of components, dimensions", "why_tests_cant": "Component/derivative index mix-ups vanish on symmetric data.", "anchors": ["src/petigapoint.c:IGAPointFormValue", "src/petigaval.F90"]}
{"id": "C70", "title": "Point data match the point", "statement": "In the loop IGAElementBeginPoint/NextPoint/EndPoint exactly the element's quadrature points are visited; at each, weight, detJac, coordinates, normal, basis, shape functions and map derivatives handed out are those of that point and lie inside the tabulated arrays, also for a geometry with more space than parameter dimensions.", "quantifier": "all numbers of points, functions, dimensions, with and without geometry", "why_tests_cant": "A wrong stride reads plausible numbers of another point; surfaces in space are rarely tested.", "anchors": ["src/petigaelem.c:IGAElementNextPoint", "src/petigaelem.c:IGAElementInit", "src/petigaelem.c:IGAElementEndPoint"]}
{"id": "C71", "title": "Jacobian of the geometry map and its left inverse", "statement": "IGAPointFormGradGeomMap returns the derivative of the geometry map at the point, and IGAPointFormInvGradGeomMap a left inverse of it, also for curves and surfaces in space.", "quantifier": "all geometries with injective derivative, dimensions", "why_tests_cant": "The non-square case uses a separate formula.", "anchors": ["src/petigapoint.c:IGAPointFormGradGeomMap", "src/petigapoint.c:IGAPointFormInvGradGeomMap", "src/petigaval.F90"]}
{"id": "C72", "title": "Vector files do not depend on the number of processes", "statement": "A vector written with IGAWriteVec and read back with IGAReadVec, on the same discretisation but on any other number of processes, has the same value at every node and component.", "quantifier": "all discretisations, process counts, vectors", "why_tests_cant": "All pairs of decompositions.", "anchors": ["src/petigaio.c:IGASaveVec", "src/petigaio.c:IGALoadVec", "src/petigagrid.c:IGA_Grid_NewScatterG2N"]}
{"id": "C73", "title": "Local work vectors have the current local size", "statement": "Every vector returned by IGAGetLocalVec has the size of the local vectors of the current layout (dof times the ghosted box), also after the IGA was reset and set up again with other axes.", "quantifier": "all sequences of get, restore, reset and set-up calls", "why_tests_cant": "Depends on the whole call history, in particular on vectors held during a reset.", "anchors": ["src/petigavec.c:IGAGetLocalVec", "src/petigavec.c:IGARestoreLocalVec", "src/petiga.c:IGAReset"]}
{"id": "C74", "title": "Element and point work arrays are zeroed and never overlap", "statement": "During one iteration of the element (point) loop every work vector and matrix obtained with IGAElementGetWorkVec/GetWorkMat (IGAPointGetWorkVec/GetWorkMat) is zero and distinct from all arrays obtained before, whose contents are not disturbed; IGAElementGetValues returns the nodal values of the element; a request fails exactly when all 8 vectors, 8 value arrays or 4 matrices are out, or outside the loop; the next iteration makes all of them available again.", "quantifier": "all call sequences, sizes, contents", "why_tests_cant": "All histories and contents; an overlap shows up only for particular orders of calls.", "anchors": ["src/petigaelem.c:IGAElementGetWorkVec", "src/petigaelem.c:IGAElementGetWorkMat", "src/petigaelem.c:IGAElementGetValues", "src/petigapoint.c:IGAPointGetWorkVec", "src/petigapoint.c:IGAPointGetWorkMat"]}
{"id": "C75", "title": "Finite-difference Jacobians of residuals that add to their output", "statement": "IGAFormJacobianFD and variants give the derivative of the residual also for callbacks that add their contributions to the output array (which every work vector request returns filled with zeros).", "quantifier": "all residual callbacks, including accumulating ones", "why_tests_cant": "Depends on the coding style of the callback; the first column is always right.", "anchors": ["src/petigafdjac.c:IGAFormJacobianFD"]}
{"id": "C76", "title": "Every multigrid level can be distributed", "statement": "Each grid of the automatically determined multigrid hierarchy has at least one point per process in every direction, so setting up the preconditioner never fails.", "quantifier": "all grid sizes and process counts", "why_tests_cant": "Shows up only for particular combinations of sizes and process counts.", "anchors": ["src/petigapcmg.c:CoarsenFactor", "src/petigapcmg.c:IGAPreparePCMG"]}
{"id": "C77", "title": "Callbacks receive the context they were set with", "statement": "After any sequence of IGASetForm* calls, the callback invoked for each kind of form is the one set last and gets the context pointer given in the same call.", "quantifier": "all sequences of setter calls", "why_tests_cant": "Combinations of setters are not enumerated by tests.", "anchors": ["src/petigaform.c:IGASetFormIFunction", "src/petigaform.c:IGASetFormI2Function", "src/petigats2.c:IGAElementNextFormIFunction"]}
{"id": "C78", "title": "Time steppers call the callbacks with the documented vectors", "statement": "The residual and Jacobian callbacks invoked by a TS obtained from IGACreateTS or IGACreateTS2 belong together and get the state, its first and its second derivative in the documented argument positions, the Jacobian with the matching shifts.", "quantifier": "all subsets of callbacks set, all vectors and shifts", "why_tests_cant": "All subsets of callbacks would have to be tried.", "anchors": ["src/petigats.c:IGATSFormIFunction", "src/petigats.c:IGATSFormIJacobian", "src/petigats2.c:IGATSFormI2Function", "src/petigats2.c:IGATSFormI2Jacobian"]}
{"id": "C79", "title": "Point evaluation gives the field and its derivatives", "statement": "After IGAProbeSetPoint at a point of the domain, IGAProbeEvaluate returns the value and, up to the order of the probe, the partial derivatives of the B-spline or NURBS field with the coefficients of the vector (with respect to physical coordinates when there is a geometry of full dimension): on all processes if the probe is collective, otherwise on those holding the point, while the others return zeros.", "quantifier": "all discretisations, process counts, vectors, points of the domain, orders", "why_tests_cant": "All points, decompositions and coefficients.", "anchors": ["src/petigaprobe.c:IGAProbeSetPoint", "src/petigaprobe.c:IGAProbeEvaluate"]}
{"id": "C80", "title": "Changing the settings of a probe keeps its evaluations right", "statement": "Once a point has been set, IGAProbeEvaluate returns value and derivatives at that point, also after the order or the collective flag were changed with IGAProbeSetOrder or IGAProbeSetCollective.", "quantifier": "all call sequences on a probe", "why_tests_cant": "Wrong only for particular orders of calls, without an error.", "anchors": ["src/petigaprobe.c:IGAProbeSetOrder", "src/petigaprobe.c:IGAProbeSetCollective", "src/petigaprobe.c:IGAProbeEvaluate"]}
{"id": "C81", "title": "Assembly drivers integrate the callbacks and impose the boundary conditions", "statement": "IGAComputeVector, Matrix, System, Function, Jacobian, IFunction, IJacobian, IEFunction, IEJacobian, RHSFunction, RHSJacobian, I2Function and I2Jacobian assemble, for every node and component, the sum over all elements of the callback's point contributions (computed in zeroed arrays) weighted by detJac times quadrature weight, over the interior of each element and every boundary face with a boundary form exactly once. The callbacks see the state with the prescribed boundary values imposed and the rates with zeros there. Except in ComputeVector and ComputeMatrix, rows of prescribed degrees of freedom are u-v (residuals) or identity rows (matrices), and boundary loads are subtracted from residuals and added to right-hand sides. The result does not depend on the number of processes, the arrival order of messages or previous memory contents.", "quantifier": "all callbacks, states, boundary conditions, discretisations, process counts", "why_tests_cant": "All callbacks and decompositions; quadrature loops and boundary treatment interact.", "anchors": ["src/petigaksp.c:IGAComputeSystem", "src/petigasnes.c:IGAComputeFunction", "src/petigasnes.c:IGAComputeJacobian", "src/petigats.c:IGAComputeIFunction", "src/petigats.c:IGAComputeIEFunction", "src/petigats2.c:IGAComputeI2Function", "src/petigapoint.c:IGAPointAddArray"]}
{"id": "C82", "title": "The assembled Jacobian is the derivative of the assembled residual", "statement": "If at every quadrature point the Jacobian callback returns the derivative of the residual callback (with respect to U, and with the shifts a, v for the rates), then the matrix assembled by IGAComputeJacobian (IJacobian, IEJacobian, RHSJacobian, I2Jacobian) at a state is the derivative of the vector assembled by the matching IGAComputeFunction (IFunction, ...) in every direction, boundary values, loads and fix tables included.", "quantifier": "all differentiable callbacks, states, directions, boundary conditions", "why_tests_cant": "Newton converges, slowly, with a wrong Jacobian; no test looks at the derivative in all directions.", "anchors": ["src/petigasnes.c:IGAComputeJacobian", "src/petigats.c:IGAComputeIJacobian", "src/petigats.c:IGAComputeIEJacobian", "src/petigats2.c:IGAComputeI2Jacobian"]}
{"id": "C83", "title": "A linear problem may be posed as a system or as a residual", "statement": "If the Function callback returns K U - F and the Jacobian callback K at every point, where K and F are what the System callback returns, then the residual assembled by IGAComputeFunction at U equals A U - b for the A, b assembled by IGAComputeSystem, boundary values and loads included, and the assembled Jacobian equals A.", "quantifier": "all linear problems, states, boundary conditions", "why_tests_cant": "Both formulations are never compared on the same problem with all kinds of boundary conditions.", "anchors": ["src/petigaksp.c:IGAComputeSystem", "src/petigasnes.c:IGAComputeFunction"]}
{"id": "C84", "title": "Boundary values hold with separate vector and matrix forms", "statement": "When a linear problem is posed with IGASetFormVector and IGASetFormMatrix, the solution of the assembled equations takes the values given with IGASetBoundaryValue.", "quantifier": "all linear problems with boundary values", "why_tests_cant": "The combination is not tested.", "anchors": ["src/petigaksp.c:IGAComputeVector", "src/petigaksp.c:IGAComputeMatrix", "src/petigaksp.c:IGAKSPFormRHS"]}
{"id": "C85", "title": "Right-hand side functions and implicit functions pose the same equation", "statement": "If IFunction(V,U) = M V - RHSFunction(U) at every point, then the assembled vectors satisfy ComputeIFunction(V,U) = M V - ComputeRHSFunction(U) at every degree of freedom without a prescribed value, boundary loads included.", "quantifier": "all callbacks and loads", "why_tests_cant": "The combination of explicit right-hand sides and loads is not tested.", "anchors": ["src/petigats.c:IGAComputeRHSFunction", "src/petigats.c:IGAComputeIFunction", "src/petigaelem.c:IGAElementFixFunction"]}
{"id": "C86", "title": "Error norms are the norms of the error", "statement": "IGAComputeErrorNorm(k) returns for every field the square root of the integral (by the quadrature of the IGA) over all elements of the squared difference between the k-th partial derivatives given by Exact and those of the discrete field, k up to 4 and up to the order of the IGA; NULL for the vector or Exact counts as zero. It is zero exactly when the derivatives agree at all quadrature points, satisfies the triangle inequality, scales with |c|, and does not depend on the number of processes, arrival order of messages, or previous memory contents.", "quantifier": "all fields, exact functions, orders, dimensions, process counts", "why_tests_cant": "Only particular solutions with known errors can be tried.", "anchors": ["src/petigacomp.c:IGAComputeErrorNorm", "src/petigacomp.c:IGAComputeScalar", "src/petigapoint.c:IGAPointEvaluate"]}
{"id": "C87", "title": "Derivative indices of error norms that cannot be computed are rejected", "statement": "IGAComputeErrorNorm either returns the norm of the error in the requested derivatives or reports an error: for every k, including negative ones, those above 4 and those above the order of the IGA.", "quantifier": "all k, dimensions and orders", "why_tests_cant": "Out-of-range indices are not tried by tests.", "anchors": ["src/petigacomp.c:IGAComputeErrorNorm"]}
{"id": "C88", "title": "The element-by-element preconditioner of a positive definite matrix is positive definite", "statement": "With -pc_type ebe, the set-up of the preconditioner for a symmetric positive definite IGA matrix succeeds on any number of processes, and the operator it applies is the sum over all elements of the inverses of the diagonal blocks of the element's (owned) unknowns; it is symmetric positive definite, so that CG may be used.", "quantifier": "all positive definite matrices, spaces, periodic or not, field counts, process counts", "why_tests_cant": "Positive definiteness is a statement about all vectors; tests only see that some solve converged.", "anchors": ["src/petigapce.c:PCSetUp_EBE", "src/petigapce.c:ComputeOwnedGlobalIndices"]}
{"id": "C89", "title": "The basis-by-basis preconditioner of a positive definite matrix is positive definite", "statement": "With -pc_type bbb, the set-up for a symmetric positive definite IGA matrix succeeds, the operator is the sum over all nodes of the inverses of the blocks of the unknowns within the overlap, and it is symmetric positive definite on any number of processes.", "quantifier": "all positive definite matrices, spaces, overlaps, field counts, process counts", "why_tests_cant": "A preconditioner with an empty row still lets many solves converge; tests cannot tell.", "anchors": ["src/petigapcb.c:PCSetUp_BBB", "src/petigapcb.c:ComputeOverlap"]}
{"id": "C90", "title": "The adjacency graph for BDDC is a well-formed graph of the local grid", "statement": "IGAPreparePCBDDC hands PCBDDCSetLocalAdjacencyGraph, on every process, a compressed adjacency structure over all local unknowns: as many entries as were allocated, symmetric, every unknown adjacent to itself, joined exactly the unknowns of equal or neighbouring nodes of the (wrapped) local box in the same layer of ghost nodes, rows increasing and without repetition.", "quantifier": "all spaces, decompositions and field counts", "why_tests_cant": "Graphs are not inspected by tests; BDDC only converges better or worse.", "anchors": ["src/petigapcbddc.c:IGAComputeBDDCGraph", "src/petigapcbddc.c:IGAPreparePCBDDC"]}
{"id": "C91", "title": "Unknowns joined in the BDDC graph are neighbours on the global grid", "statement": "Two unknowns joined in the adjacency graph given to BDDC belong to the same node or to nodes next to each other on the grid (around the ring in periodic directions).", "quantifier": "all spaces, decompositions and processes", "why_tests_cant": "Needs a view of all processes and their numbering at once.", "anchors": ["src/petigapcbddc.c:IGAComputeBDDCGraph", "src/petigapcbddc.c:IGAPreparePCBDDC"]}
{"id": "C92", "title": "BDDC is told the boundary conditions", "statement": "The index set of Dirichlet unknowns given to BDDC holds on every process exactly the local unknowns with a prescribed boundary value, that of the Neumann unknowns exactly the other ones on a non-periodic face; both are sorted and filled to their allocated size.", "quantifier": "all boundary values, spaces, decompositions, field counts", "why_tests_cant": "Wrong sets only change the convergence.", "anchors": ["src/petigapcbddc.c:IGAComputeBDDCBoundary", "src/petigapcbddc.c:IGAPreparePCBDDC"]}
{"id": "C93", "title": "Primal vertices of BDDC are shared by no two processes", "statement": "The primal vertices named by all the processes are distinct nodes of the grid, every process names at least one of its own local nodes, and the corners of a domain without periodic directions are among them.", "quantifier": "all spaces, decompositions", "why_tests_cant": "Involves all processes at once.", "anchors": ["src/petigapcbddc.c:IGAPreparePCBDDC"]}
{"id": "C94", "title": "Command line options describe the mesh", "statement": "IGASetFromOptions on an IGA that has not been set up gives it the dimension, fields, order, processor grid and, in every direction, the degree, elements, limits, continuity, periodicity, basis type and quadrature of the options: the value listed for the direction, for degree, elements, limits and continuity the first one for directions beyond the list, for types and rules a single value for all directions; everything else of a direction that has a mesh stays when neither elements nor degrees are given. Mesh options that make sense are accepted.", "quantifier": "all combinations of options and all states before set-up", "why_tests_cant": "The combinations of some fifteen list-valued options are not enumerable in tests.", "anchors": ["src/petiga.c:IGASetFromOptions", "src/petigaaxis.c:IGAAxisInitUniform"]}
{"id": "C95", "title": "Default continuity fits the basis type of the direction", "statement": "Without -iga_continuity a B-spline direction made by IGASetFromOptions has the full continuity of its degree and a direction of another basis type (Bernstein, Lagrange, spectral) is C0.", "quantifier": "all lists of basis types", "why_tests_cant": "Mixed basis types are not tested.", "anchors": ["src/petiga.c:IGASetFromOptions"]}
{"id": "C96", "title": "Options not given change nothing", "statement": "IGASetFromOptions leaves alone what no option was given for: degrees set with IGAAxisSetDegree, and degrees and limits of existing meshes, stay.", "quantifier": "all states before set-up and all sets of options", "why_tests_cant": "Tests configure either with the API or with options, with equal degrees in all directions.", "anchors": ["src/petiga.c:IGASetFromOptions"]}
{"id": "C97", "title": "Options given take effect or are reported", "statement": "An option IGASetFromOptions accepts is honoured: when it returns without error the limits and the continuity asked for are those of the mesh.", "quantifier": "all states and options", "why_tests_cant": "Ignored options go unnoticed in tests that set everything.", "anchors": ["src/petiga.c:IGASetFromOptions"]}
{"id": "C98", "title": "IGASetFromOptions may be called twice", "statement": "A second IGASetFromOptions with the same options before set-up succeeds and leaves the IGA as it is, whatever memory the reallocated knot vectors contain.", "quantifier": "all options and states for which the first call succeeds", "why_tests_cant": "Needs all combinations of options; order-dependent defaults show only in some.", "anchors": ["src/petiga.c:IGASetFromOptions", "src/petiga.c:IGASetProcessors", "src/petigarule.c:IGARuleSetSize"]}
{"id": "C99", "title": "Element quadrature is the tensor product of the rules of the directions", "statement": "After IGASetUp the points an element hands out number as many as announced, at least one; sums over them of a function of the parametric point times weight and parametric Jacobian are tensor products of the one-dimensional rules: the points with positive weight, times half the element's length, in every direction, and in the direction of a boundary face the end of the domain. The functions at a point are those of the element's span at its coordinates, with all their derivatives. Weights and Jacobians are positive.", "quantifier": "all spaces, degrees, rules (built-in and user), elements, faces, dimensions", "why_tests_cant": "Rules, degrees and dimensions combine without bound; wrong tables still integrate low degrees.", "anchors": ["src/petigabasis.c:IGABasisInitQuadrature", "src/petigaelem.c:IGAElementBuildTabulation", "src/petiga1d.F90:IGA_Quadrature_1D", "src/petiga2d.F90:IGA_Quadrature_2D", "src/petiga3d.F90:IGA_Quadrature_3D"]}
{"id": "C100", "title": "A definite integrand gives a positive definite matrix", "statement": "If the point matrices a user computes are positive semidefinite on faces and, in the interior, vanish only on fields that vanish at the point (as for reaction, or diffusion plus reaction), then the matrix assembled by IGAComputeMatrix, IGAComputeSystem or IGAComputeJacobian is symmetric positive definite: with the default rule or any with more than p points per direction, positive NURBS weights and a geometry of positive Jacobian, on any number of processes and with any Dirichlet conditions.", "quantifier": "all spaces (periodic or not), fields, geometries, rules, process counts, states, arrival orders", "why_tests_cant": "Definiteness is a statement about all vectors; a defect in one index map makes some matrix singular but not the tested ones.", "anchors": ["src/petigaksp.c:IGAComputeMatrix", "src/petigaksp.c:IGAComputeSystem", "src/petigasnes.c:IGAComputeJacobian", "src/petigaelem.c:IGAElementBuildTabulation", "src/petigabasis.c:IGABasisInitQuadrature"]}
{"id": "C101", "title": "Diffusion with a Dirichlet condition is solvable", "statement": "If the point matrices vanish only on fields of zero gradient and every component has a Dirichlet condition on some face of a non-periodic direction, the matrix of IGAComputeSystem and of IGAComputeJacobian is symmetric positive definite. Without, IGAComputeMatrix annihilates what all point matrices annihilate, such as constants.", "quantifier": "all polynomial spaces, fields, geometries of positive Jacobian, rules with more than p points, process counts, states", "why_tests_cant": "As above; connectivity of the grid of elements and the boundary faces enters for every mesh.", "anchors": ["src/petigaksp.c:IGAComputeSystem", "src/petigasnes.c:IGAComputeJacobian", "src/petigaelem.c:IGAElementFixSystem", "src/petigaelem.c:IGAElementBuildTabulation"]}
{"id": "C102", "title": "Collocation points are the Greville abscissae and their tables the functions active there", "statement": "With IGASetUseCollocation and after IGASetUp every basis function that is not a periodic image has one point: the mean of the p inner knots of its support. The tables hold, for that point, the p+1 functions of the knot interval containing it, with their derivatives, and the offset of the first. On open knot vectors all points lie in the domain, the first and last at its ends, where only one function is nonzero. On periodic axes with uniform knots they lie in the domain as well.", "quantifier": "all knot vectors, degrees, periodicities", "why_tests_cant": "The knot vectors are unbounded; only non-uniform periodic ones of degree 3 or more move a point out of the domain.", "anchors": ["src/petigabasis.c:IGABasisInitCollocation", "src/petigabasis.c:IGA_Greville", "src/petigabasis.c:IGA_FindSpan"]}
{"id": "C103", "title": "One equation per collocation point", "statement": "While a user loops over a collocation point exactly one form is visited: that of the first face (in the order of the axes, left before right) through the node that has a boundary form, or else the interior, and the element is left ready for the next loop. There is one quadrature point, of weight and Jacobian one whatever the geometry. On an open knot vector the form of a face sees the same point and functions as the interior would.", "quantifier": "all nodes, sets of faces with boundary forms, dimensions, geometries", "why_tests_cant": "Nodes on edges and corners combine with any subset of faces.", "anchors": ["src/petigaelem.c:IGAElementNextForm", "src/petigaelem.c:IGAElementEndPoint", "src/petigaelem.c:IGAElementBuildTabulation"]}
{"id": "C104", "title": "Collocated systems: row by row, on any number of processes", "statement": "The rows of node t of the vector and matrix of IGAComputeVector/Matrix in collocation are what the user's routine returned at the point of t, in one call; the entry of node u is the sum over the functions listed at t that belong to u. The result does not depend on the number of processes or the order in which contributions arrive.", "quantifier": "all spaces (periodic or not), dof, process counts, orders, callbacks, nodal inputs", "why_tests_cant": "Partitions, periodic wrapping and arrival orders are unbounded.", "anchors": ["src/petigaksp.c:IGAComputeVector", "src/petigaksp.c:IGAComputeMatrix", "src/petigaelem.c:IGAElementBuildClosure", "src/petigaelem.c:IGAElementAssembleVec", "src/petigaelem.c:IGAElementAssembleMat", "src/petiga.c:IGASetUp_Stage1"]}
{"id": "C105", "title": "The nonzero structure of collocation matrices is exactly that of the assembly", "statement": "In collocation each process adds entries only to the rows of its own nodes, IGACreateMat preallocates exactly their locations, the buffer of column indices and the row lengths suffice. For MATIS the local pattern covers the entries and only existing nodes are looked up.", "quantifier": "all spaces, dof, process counts, matrix types", "why_tests_cant": "A missing location shows only for particular partitions and periodicities.", "anchors": ["src/petigamat.c:IGACreateMat", "src/petigamat.c:Stencil", "src/petigamat.c:ColumnIndices", "src/petigaelem.c:IGAElementAssembleMat"]}
{"id": "C106", "title": "Collocation uses the control points of the active functions", "statement": "At a collocation point the element's copies of control points, weights and properties are those of the functions active at the point, read inside the arrays of the process.", "quantifier": "all spaces, dimensions, process counts, geometries", "why_tests_cant": "The strides of two index boxes differ only on the last process of a non-uniform periodic direction of degree 3 or more that is not the last direction.", "anchors": ["src/petigaelem.c:IGAElementBuildClosure", "src/petiga.c:IGASetUp_Stage1", "src/petigaio.c:IGALoadGeometry"]}
{"id": "C107", "title": "Boundary conditions of collocated linear systems", "statement": "In collocation the equation of component c at a node of the system of IGAComputeSystem is the last condition set with IGASetBoundaryValue or IGASetBoundaryLoad on a face through the node: the value, or the derivative along the normal, of the discrete field of component c at the collocation point equals the number set. Nodes without a condition keep the user's equation. A value set at an open end of a one-dimensional domain fixes the unknown of the end node.", "quantifier": "all spaces, dof, process counts, conditions, callbacks", "why_tests_cant": "Edges and corners combine conditions of several faces; the position of the function of a node among the active ones depends on the knots.", "anchors": ["src/petigaelem.c:IGAElementFixSystem", "src/petigaelem.c:AddFixa", "src/petigaksp.c:IGAComputeSystem"]}
{"id": "C108", "title": "Boundary conditions of collocated nonlinear problems", "statement": "In collocation on non-periodic axes IGAComputeFunction gives, for an unknown with a prescribed value, the difference to that value (of the fix table when there is one) and elsewhere what the user's Function returned at the point, called with the prescribed values in place of the unknowns; IGAComputeJacobian is its derivative, and loads enter as in the linear system.", "quantifier": "all spaces without periodic axes, dof, process counts, states, callbacks", "why_tests_cant": "As for linear systems.", "anchors": ["src/petigaelem.c:IGAElementFixFunction", "src/petigaelem.c:IGAElementFixJacobian", "src/petigaelem.c:IGAElementFixValues", "src/petigasnes.c:IGAComputeFunction", "src/petigasnes.c:IGAComputeJacobian"]}
{"id": "C109", "title": "Objects live exactly as long as something the program holds refers to them", "statement": "Whatever sequence of calls creates, clones, composes, references and destroys IGAs, forms, vectors, matrices, solvers, DMs and probes: no call touches freed memory; an object is alive if and only if the program holds a reference to it or to something that refers to it; when the program has given back all its references, in whatever order, nothing is left. What was made from an IGA keeps it alive. IGASetForm, DMIGASetIGA and IGAProbeSetVec store what is given; DMIGASetIGA refuses a second, different IGA and changes nothing. IGAClone shares no owned object with the original.", "quantifier": "all finite sequences of calls a program may make", "why_tests_cant": "Orders of creation and destruction are unbounded and leaks and dangling references depend on the order.", "anchors": ["src/petiga.c:IGACreate", "src/petiga.c:IGADestroy", "src/petiga.c:IGAClone", "src/petigaform.c:IGASetForm", "src/petigavec.c:IGACreateVec", "src/petigasnes.c:IGACreateSNES", "src/petigats.c:IGACreateTS", "src/petigats2.c:IGACreateTS2", "src/petigadm.c:DMIGASetIGA", "src/petigadm.c:DMClone_IGA", "src/petigaprobe.c:IGAProbeSetVec"]}
{"id": "C110", "title": "A probe stays usable while it is held", "statement": "IGAProbeSetPoint on a probe the program holds reads only memory that is still there, also when the program has destroyed its own references to the IGA and to the vector, and whatever else was done meanwhile.", "quantifier": "all finite sequences of calls a program may make", "why_tests_cant": "The arrays of control points and weights are shared without a reference; what frees them is any call on the IGA in between.", "anchors": ["src/petigaprobe.c:IGAProbeCreate", "src/petigaprobe.c:IGAProbeSetPoint", "src/petiga.c:IGAReset", "src/petigaio.c:IGASetGeometryDim"]}
{"id": "C111", "title": "The tables of a form never overflow and are freed with it", "statement": "Whatever sequence of IGASetBoundaryValue, IGASetBoundaryLoad, IGASetBoundaryForm and IGAFormClearBoundary is called: every access stays inside the 64 places of an allocated table, a call succeeds exactly when its arguments are legal, the tables hold what was last written. Clearing all faces makes the form as blank as a new one. IGAFormDestroy frees each table once and leaves none.", "quantifier": "all sequences of calls and arguments", "why_tests_cant": "The table has no check of its own; that 64 places suffice is a counting argument over all histories.", "anchors": ["src/petigaform.c:IGAFormCreate", "src/petigaform.c:IGAFormBCSetEntry", "src/petigaform.c:IGAFormSetBoundaryValue", "src/petigaform.c:IGAFormSetBoundaryLoad", "src/petigaform.c:IGAFormClearBoundary", "src/petigaform.c:IGAFormDestroy"]}
{"id": "C112", "title": "IGAFormReset leaves a form as new", "statement": "After IGAFormReset a form has no callbacks, conditions and boundary forms and can be used again.", "quantifier": "all forms and platforms", "why_tests_cant": "The sizes of the structures depend on the platform; writing behind a heap block may go unnoticed.", "anchors": ["src/petigaform.c:IGAFormReset"]}
{"id": "C113", "title": "A DM of selected fields has their entries", "statement": "DMCreateSubDM for a non-empty list of existing fields succeeds, on any number of processes: the new DM has as many components as fields were selected, their names, and the same nodes; component k of a node in its vectors is, through the index set returned, component fields[k] of the same node in vectors of the original DM; on every process the index set is as long as the local part of the new DM's vectors. Fields that do not exist are rejected.", "quantifier": "all spaces, dof, process counts, selections (repetitions and any order included)", "why_tests_cant": "The positions depend on the partition; an index set that is right on one process may be wrong on the next.", "anchors": ["src/petigadm.c:DMCreateSubDM_IGA", "src/petiga.c:IGAClone", "src/petiga.c:IGASetFieldName", "src/petigagrid.c:IGA_Grid_GetLayout"]}
{"id": "C114", "title": "The field index sets of a DM make up its vectors", "statement": "DMCreateFieldIS and DMCreateFieldDecomposition return one index set per field; index set i lists component i of all nodes, every entry of the vectors belongs to exactly one of them, on any number of processes. The names are those given to the fields, else their numbers.", "quantifier": "all spaces, dof, process counts, names", "why_tests_cant": "Fieldsplit on one process works; the partition decides the rest.", "anchors": ["src/petigadm.c:DMCreateFieldIS_IGA", "src/petigadm.c:DMCreateFieldDecomposition_IGA", "src/petiga.c:IGAGetFieldName"]}
{"id": "C115", "title": "A DM describes its IGA", "statement": "After any sequence of DM calls a DM that is set up has the block size, dimension, coordinate dimension and local-to-global map of its IGA; setting up gives it the IGA's vector and matrix types; its vectors and matrices have the DM's types and the IGA's block size, know the DM, and making them leaves DM and IGA unchanged. Clones and coordinate DMs have the same nodes and dimensions and as many components as the original, respectively as space dimensions.", "quantifier": "all finite sequences of DM calls, all types", "why_tests_cant": "The attributes are copied at different times by different calls.", "anchors": ["src/petigadm.c:DMSetUp_IGA", "src/petigadm.c:DMIGACreate", "src/petigadm.c:DMLoad_IGA", "src/petigadm.c:DMCreateGlobalVector_IGA", "src/petigadm.c:DMCreateMatrix_IGA", "src/petigadm.c:DMClone_IGA", "src/petigadm.c:DMCreateCoordinateDM_IGA"]}
{"id": "C116", "title": "Types and names chosen by the user are kept", "statement": "The vector and matrix types chosen for a DM (DMSetVecType, -dm_vec_type) are those of the vectors and matrices it makes and of their duplicates, clones of the DM have the types and field names of the original, and a creation that fails changes nothing.", "quantifier": "all finite sequences of DM calls, all types", "why_tests_cant": "Type names only matter on the machines that have the other types.", "anchors": ["src/petigadm.c:DMSetUp_IGA", "src/petigadm.c:DMCreateGlobalVector_IGA", "src/petigavec.c:VecDuplicate_IGA", "src/petigadm.c:DMClone_IGA", "src/petiga.c:IGAClone"]}
{"id": "C117", "title": "Fortran programs see the same point as C programs", "statement": "The module PetIGA shows Fortran user functions the arrays of an integration point that C user functions see, the last index of C being the first of Fortran and counted from one: basis and shape functions of every order, weights, control points, geometry map, its gradient and its inverse, face and normal; missing arrays are null. IGA_Value, IGA_Grad, IGA_Hess, IGA_Der3, IGA_Der4 of scalar and vector coefficients give what the C functions give, IGA_Div the trace of the gradient, IGA_Del2 the trace of the Hessian.", "quantifier": "all points, orders, numbers of nodes, components and dimensions, all coefficients", "why_tests_cant": "Index orders agree by accident on symmetric or one-dimensional examples.", "anchors": ["src/petigaftn.F90:IGA_Shape_Der1_V", "src/petigaftn.F90:IGA_Shape_Div", "src/petigaftn.F90:IGA_Shape_Del2_V", "src/petigaftn.F90:IGA_GradGeomMap", "src/petigaftn.F90:IGA_Normal", "src/petigaftn.F90:IGA_AtBoundary"]}
{"id": "C118", "title": "Fortran programs see the properties", "statement": "IGA_Property shows the property values of the nodes of the element, for every scalar type PETSc may be configured with.", "quantifier": "all properties, real and complex scalars", "why_tests_cant": "A configuration with complex scalars is a different program; the memory read is always valid.", "anchors": ["src/petigaftn.F90:IGA_Property", "include/petiga.h:_n_IGAPoint"]}
{"id": "C119", "title": "IGAView shows the continuity of the space", "statement": "For every axis IGAView prints the lowest and the highest continuity (degree minus multiplicity) of the functions across the knots inside the domain, one number when they agree, a star when there is no such knot. On a periodic axis, whose first and last knots have the same multiplicity, the seam is one of these knots.", "quantifier": "all accepted knot vectors and degrees", "why_tests_cant": "The range depends on where equal knots lie relative to the ends of the domain.", "anchors": ["src/petiga.c:IGA_ContinuityString", "src/petiga.c:IGAPrint", "src/petigaaxis.c:IGA_NextKnot"]}
{"id": "C120", "title": "IGAView shows the sizes of the mesh and of its parts", "statement": "After IGASetUp with quadrature, on any number of processes, IGAView prints the number of nodes and of elements of the mesh, and the least and the greatest numbers some process owns; the least is positive.", "quantifier": "all meshes, process counts, partitions", "why_tests_cant": "The counts are reduced over the processes; tests run on few.", "anchors": ["src/petiga.c:IGAPrint", "src/petiga.c:IGASetUp"]}
{"id": "C121", "title": "Matrices of the block and symmetric block types", "statement": "IGACreateMat with the types baij and sbaij describes blocks that hold exactly the entries of the aij structure, sbaij the upper triangle of them; every entry an assembly over the elements writes lies in a block of the owner of its row, and the preallocated lengths of every row are enough on every process. When the element matrices are symmetric and the entries below the diagonal are ignored (MAT_IGNORE_LOWER_TRIANGULAR), the sbaij matrix represents the matrix that aij assembles.", "quantifier": "all spaces, dof, process counts, symmetric and unsymmetric types, symmetric element matrices", "why_tests_cant": "The upper triangle in global numbering depends on the partition; a row too short only costs time or an error on some meshes.", "anchors": ["src/petigamat.c:FilterLowerTriangular", "src/petigamat.c:IGACreateMat", "src/petigamat.c:MatPreallocateSymmetricSetBlock"]}
{"id": "C122", "title": "The DMs of an IGA have its partition", "statement": "After IGASetUp with quadrature, IGAGetElemDM, IGAGetGeomDM and IGAGetNodeDM give DMDAs that all processes describe alike and PETSc accepts; the part of a process in them is its elements, control points and nodes of the IGA; an entry of a vector made by the IGA is the same entry of a vector made by the node DM.", "quantifier": "all spaces, dof, process counts, partitions", "why_tests_cant": "Partitions with unequal parts or several directions are many; PETSc checks only sums.", "anchors": ["src/petiga.c:IGACreateDMDA", "src/petiga.c:IGACreateElemDM", "src/petiga.c:IGACreateGeomDM", "src/petiga.c:IGACreateNodeDM", "src/petiga.c:IGASetUp"]}
{"id": "C123", "title": "VecView and VecLoad of vectors of an IGA", "statement": "VecView of a vector made by IGACreateVec writes coefficient c of node (i,j,k) at position dof*(i+j*N0+k*N0*N1)+c, on any number of processes; VecLoad on any other number of processes gives every node its coefficients.", "quantifier": "all spaces, dof, process counts, partitions, vectors", "why_tests_cant": "Round trips on one process count hide the order in the file.", "anchors": ["src/petigavec.c:VecView_IGA", "src/petigavec.c:VecLoad_IGA", "src/petiga.c:IGACreateNodeDM"]}
{"id": "C124", "title": "A boundary load is the boundary integral", "statement": "Without a geometry and with open knot vectors, IGASetBoundaryLoad(dir,side,field,g) adds to the right-hand side of IGAComputeSystem (subtracts from the residual of IGAComputeFunction), at every node without prescribed value, exactly g times the integral over the face of the node's function, summed over the loaded faces.", "quantifier": "all dimensions, degrees, open knot vectors with any multiplicities, partitions, rules, loads", "why_tests_cant": "The library gives every node of an element's face the same share; that these shares add up to the integrals is a theorem about B-splines.", "anchors": ["src/petigaelem.c:BoundaryArea", "src/petigaelem.c:AddFlux", "src/petigaelem.c:IGAElementBuildFix"]}
{"id": "C125", "title": "Boundary loads on mapped domains", "statement": "With a geometry, the load of an element's face is g times the area of the face, and every node receives g times the integral of its function over the face.", "quantifier": "all geometries", "why_tests_cant": "Depends on how the geometry is parametrised along the face; straight edges at constant speed hide it.", "anchors": ["src/petigaelem.c:BoundaryArea", "src/petiga2d.F90:IGA_BoundaryArea_2D", "src/petiga3d.F90:IGA_BoundaryArea_3D"]}
{"id": "C126", "title": "Near null space of the minimal BDDC option", "statement": "With -iga_set_bddc_minimal the near null space set on the matrix is an orthonormal basis of the span of the mask (when the constants are in the near null space), the given near null space vectors restricted to the mask, and the vectors chosen with -iga_set_bddc_minimal_volume; a number that names no vector is an error.", "quantifier": "all vector sizes, all masks, all near null spaces, all choices of volume terms", "why_tests_cant": "Orthogonality and the span are statements about all vectors; tests use one problem and look at iteration counts.", "anchors": ["src/petigapcbddc.c:OrthonormalizeVecs_Private", "src/petigapcbddc.c:IGAPreparePCBDDC"]}
{"id": "C127", "title": "Precedence of aliases and defaults in the options data base", "statement": "IGAOptionsAlias gives the option the value of its alias if the alias is given, else leaves what was given, else sets the default; IGAOptionsDefault never replaces a given value and the first default wins; IGAOptionsReject fails exactly on given options; no other option and no prefix changes.", "quantifier": "all contents of the data base, all sequences of defaults", "why_tests_cant": "The result depends on which of the options are present and on the order of the calls; tests run with a few command lines.", "anchors": ["src/petigaopts.c:IGAOptionsAlias", "src/petigaopts.c:IGAOptionsDefault", "src/petigaopts.c:IGAOptionsReject"]}
{"id": "C128", "title": "Values read from the options data base", "statement": "IGAGetOpt{Enum,Bool,Int,Real,Scalar,String} return the value of the option, or the default when it is not given; strings of several calls can be used side by side.", "quantifier": "all contents of the data base, all sequences of calls", "why_tests_cant": "One call at a time always looks right; the shared buffer shows only with two strings in use.", "anchors": ["src/petigaopts.c:IGAGetOptString", "src/petigaopts.c:IGAGetOptInt"]}
{"id": "C129", "title": "Mask of the minimal BDDC option", "statement": "With -iga_set_bddc_minimal the near null space is restricted to the nodes used by one process and to the middle layer of the nodes that two neighbouring processes share, in the same way in every direction and at both ends of the domain.", "quantifier": "all axes, degrees, knot multiplicities and numbers of processes", "why_tests_cant": "The layers depend on the overlap of the processes; tests use a few decompositions and look at iteration counts.", "anchors": ["src/petigapcbddc.c:IGAPreparePCBDDC"]}
{"id": "C130", "title": "Storage reserved by the preconditioner \"bbb\"", "statement": "The entries that PCSetUp_BBB adds to its matrix fit into the storage reserved by PCSetUp_BBB_CreateMatrix, in every row and in each of the matrix formats, so that the set-up never stops with an allocation error.", "quantifier": "all spaces, dimensions, numbers of components, overlaps and decompositions", "why_tests_cant": "Whether a row overflows depends on degree, periodicity, overlap and the part of the process; tests try a few.", "anchors": ["src/petigapcb.c:PCSetUp_BBB_CreateMatrix", "src/petigapcb.c:PCSetUp_BBB"]}
{"id": "C131", "title": "Nonzero structure of the preconditioner \"ebe\"", "statement": "Every entry that PCSetUp_EBE adds to its matrix has a place in the structure that PCSetUp_EBE_CreateMatrix takes from the matrix of the system, so that the set-up never stops because of a new nonzero location; the structure couples no two processes.", "quantifier": "all spaces, dimensions, numbers of components and decompositions", "why_tests_cant": "Whether an element couples unknowns outside the structure depends on knots, periodicity and the part of the process; tests try a few.", "anchors": ["src/petigapce.c:PCSetUp_EBE_CreateMatrix", "src/petigapce.c:PCSetUp_EBE"]}
{"id": "C132", "title": "Overlap of the preconditioner \"bbb\" over its life", "statement": "At every set-up the overlap in each direction of the space is the one asked for with -pc_bbb_overlap, at most the degree, or half the degree if none is asked for, and the matrix has room for the blocks of this overlap; however often options are read, the preconditioner is set up, reset and used again.", "quantifier": "all sequences of reading options, set-up and reset; all degrees, dimensions and option values", "why_tests_cant": "The state left by earlier calls matters; tests create, set up and destroy once.", "anchors": ["src/petigapcb.c:PCSetFromOptions_BBB", "src/petigapcb.c:PCSetUp_BBB", "src/petigapcb.c:PCReset_BBB", "src/petigapcb.c:PCCreate_IGABBB"]}

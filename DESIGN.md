# Formal model of PetIGA in Rocq — design

Source: `/repo` (dalcinl/PetIGA at the pinned commit), read as text, never built or run.
Prover: Coq 8.16.1, sources in `rocq/theories`, logical root `Verif`.

## 1. Modelling conventions

* `PetscInt` is modelled by `Z` (unbounded; overflow is outside the model). Process ranks, loop
  counters and array indices are `Z` too; loops become structural recursion on
  `Z.to_nat (bound)` or folds over `zrange`.
* Arrays are functions `Z -> T` together with the length the C code keeps next to them. "The code
  does not read outside the array" is stated as *locality*: two arrays which agree on the valid
  index range give the same result.
* `PetscReal`/`PetscScalar`: code that only compares knots is polymorphic in a total preorder
  (`KnotOrd`), so those theorems hold for every type of NaN-free comparable numbers (in
  particular finite IEEE doubles, integers, rationals, reals). Code that computes is modelled over
  the real numbers `R` with exact arithmetic (rounding is outside the model, always said so), or
  over a polymorphic operations record that is instantiated with `R` for the proofs and with `Q`
  for the executable examples.
* A function that can fail returns a result together with the state the object is left in, so that
  failure atomicity is visible.
* External libraries (PETSc, MPI, libm) appear as quantified section variables (for instance the
  floating point guess in `IGA_Partition`) or as a plain specification (a gather of all ranks is
  the concatenation of per-rank data). No axioms are introduced.

## 2. File layout (per topic)

* `*Model.v` — definitions only, each with the `/repo` file and lines it models.
* `*Spec.v` — small independent specification, no reference to the model.
* `*Proofs.v` — lemmas.
* `*Props.v` — the property theorems `Cnn_…`, each `exact`ing a lemma, with `Print Assumptions`
  and an `Example` (or companion theorem) showing a concrete case meets the hypotheses.

## 3. Trusted base

* Coq's kernel (no `-type-in-type`, no disabled checks), `coqc` 8.16.1.
* `Print Assumptions` output is under each theorem; theorems over `Z` are closed under the global
  context; theorems over `R` use only the standard library's real-number axioms
  (`ClassicalDedekindReals.sig_forall_dec`, `ClassicalDedekindReals.sig_not_dec`,
  `FunctionalExtensionality.functional_extensionality_dep`, and for some analysis lemmas
  `Classical_Prop.classic`).
* Coquelicot (integrals, continuity) and Flocq (definition of double precision rounding) are used as
  libraries of definitions and lemmas; they add no axioms beyond the ones listed above.
* The reading of `/repo` into the `*Model.v` files.

## 4. Properties: what is modelled, how proved

(Updated as the development grows; `MANIFEST.json` gives status and theorem names.)

| id | model | method |
|----|-------|--------|
| C01 | `IGAAxisSetKnots` with its three checks and its multiplicity loop, order-polymorphic | loop invariant on `IGA_NextKnot`; equivalence with a direct counting specification |
| C02 | `IGAAxisGetSpans` | induction on the scan; characterisation by membership + sortedness |
| C03, C04, C05 | `IGAAxisInitUniform` over `R`, `IGAAxisSetUp` | closed form of the knot array; periodic loop by induction over its sequential writes |
| C06, C07 | `SetKnots`, `Init` | refuted by witness; positive part under an extra hypothesis |
| C08, C09, C10 | `IGA_Partition`, `IGA_Distribute`; root guesses arbitrary | divisibility, mixed radix, Euclidean division |
| C11 | element boxes from `Distribute` + iterator | tiling of tensor products |
| C12, C13, C14 | per-axis ranges of `IGASetUp_Stage1` | span monotonicity + multiplicity bounds; C14 refuted by witness |
| C15, C16, C17 | `IGA_Grid` index lists, AO, LG map, scatters | list permutations |
| C18, C19, C20 | element iterator, `NextForm`, `BuildClosure` | induction on the iteration, mixed radix |
| C59, C60 | same | refuted by witness |
| C56, C57, C58 | `IGA_PART2D/3D`; collocation ranges of Stage1 | see notes in MANIFEST |
| C21 | composition of C11–C20 with ADD-scatter semantics | sums over permutations |
| C22 | BC table as a state machine | refinement to a map, induction over histories |
| C23, C24, C25, C61 | `AddFixa/AddFlux/BuildFix`, `FixSystem`, `FixValues`, `FixFunction`, `FixJacobian` over `R` (flat arrays, sequential elimination) | association-list refinement; cell-by-cell form of the elimination; assembled system by exchange of sums |
| C62, C63 | collocation `BuildFix`/`FixSystem` (values only, not loads) | refuted by witness; C63 quadrature by induction |
| C26, C27, C28 | `Stencil` (quadrature), `ColumnIndices`, ghost box, LG map, pattern and row counts of `IGACreateMat` | order reasoning on knots per direction, then box by box |
| C29 | `IGA_FindSpan` binary search | measure on `high-low`, invariant |
| C30, C31 | `BSplineBasisFunsDers`, `IGA_Basis_BSpline` over `R`, loop by loop, work arrays with arbitrary contents | table invariant = Cox–de Boor pieces (`BasSpec`); coefficient rows of the derivative loop; `is_derive_n` |
| C32, C66, C67 | `Lagrange`/`Lobatto` point tables and `LagrangeBasisFunsDers` (petigalgb, petigaglp), the knot multiplicity check of `IGABasisInitQuadrature` | products over subsets of nodes and their derivatives; interpolation at `p+1` nodes determines a polynomial; blocks of exactly `p` knots; refuted: spectral degree ≥ 10 (all nodes coincide), row 4 of the Lagrange table |
| C64, C65 | loop filling `value` in `IGABasisInitQuadrature` (stops at the first weight ≤ 0), `bnd_value` | from C30/C31 and the rule theorems; refuted by witnesses (three-point open Newton–Cotes rule; knots 0,0,1,1,2,2,3,3 with p = 2: zero divisor) |
| C68 | `IGA_BasisFuns_1D/2D/3D` (products of one-dimensional tables, one point at a time) | the index tables of the mixed derivatives checked by computation, then the product rule for functions of several variables (`diff_at`, Fréchet differentiability with the 1-norm) |
| C33, C34, C35, C66 | `Rationalize`, `GeometryMap`, `Determinant`, `Inverse`, `InverseMap`, `ShapeFuns` for dim 1–3, one point at a time, over `R`; chained as in `IGAElementBuildTabulation` by `tabulate` | quotient rule; `det` by Leibniz formula; derivative of an inverse map from continuity; chain rule; refuted: fourth derivatives (stored as zero) |
| C70 | `IGAElementBeginPoint/NextPoint/EndPoint` pointers as (buffer, offset), allocations of `IGAElementInit` | induction over the loop; refuted for geometries with nsd > dim |
| C69, C71 | `IGA_GetValue/Grad/Hess/Del2/Der3/Der4`, `IGAPointFormGradGeomMap`, `IGAPointFormInvGradGeomMap` | sums of differentiable functions; left inverse by the normal equations |
| C36, C37 | `petigarule.c` literal tables (36 decimals, generated from the source text), stored with any rounding of relative error ≤ 2^-53 (`rounds`; Flocq double precision is an instance); `IGABasisInitQuadrature` points, weights, Jacobians (basis values are in C30/C31); integrals are Coquelicot's `RInt` | integer moments of the tables by computation, lifted to all polynomials by linearity; affine change of variable |
| C38, C39, C40 | `IGASetUp` (flags, Stage1; Stages 2 and 3 as status oracles), `IGARule*` calls as operations on the rule record, `IGAClone`'s rule copy + basis initialisation | refuted by witness histories, positive parts by invariant over call histories |
| C41, C42 | `IGASave`, `IGALoad`, `IGASave/LoadGeometry`, `IGASave/LoadProperty`, `VecLoad_Binary_SkipHeader`; a file is the list of integers, reals and scalars written (bytes are not modelled); `VecView`/`VecLoad` by their documented layout; both with and without headers, writer and reader with the same flag; quadrature ranges only (not collocation) | local -> global -> natural -> file -> natural -> global -> local, node by node, on two independent decompositions; zero weights included; C42 refuted by witness, restored iff the flags agree |
| C43 | `IGAElementGetIndices`, outputs as caller variables | refuted by witness (row map never stored); the other outputs by cases |
| C44 | `IGACreateCoordinates` (both branches), `ComputePoint` | positions of boxes inside boxes; points related to knot means and to the nodes of C32; geometry branch refuted for nsd ≥ 2 |
| C45 | index lists of `DMCreateSubDM_IGA`, `DMCreateFieldIS_IGA` | ownership ranges from C15; refuted for `FieldIS` on ranks > 0 |
| C46 | overlaps, ghost ranges and `ComputeOverlap` of the basis-by-basis preconditioner (not the matrix inversion) | exact description of the covered nodes; refuted by witness |
| C47, C75 | `DeltaWP` and the five routines of petigafdjac.c over `R`; the residual is a function of its arrays and of the previous contents of its output; work vectors zero on entry; real scalars only | loop invariant over the columns; exactness for affine residuals by algebra; error bound by the mean value theorem; C75 refuted by a two-unknown residual |
| C48, C76 | `CoarsenFactor` (factors updated in place), the loop of `DMDAComputeCoarsenLevels`, `DMDAComputeCoarsenFactor` with the hook; the size of a coarsened DMDA as documented by PETSc | the first direction of maximal size keeps its factor; induction over the levels; C76 refuted by 8 points on 5 processes |
| C49, C73 | `IGAGetLocalVec`, `IGARestoreLocalVec`, `IGAReset`, `IGASetUp` as operations on the pool of local vectors | invariant over call histories; C73 refuted by a vector held during `IGAReset` |
| C74 | work vectors, values and matrices of elements and points (slots, counters, contents) | invariant over histories within one iteration |
| C77, C78 | setters and lookups of callbacks, `IGAKSPForm*`, `IGATSForm*` dispatch | induction over histories; refuted by witnesses (I and I2 callbacks share their context; a first order residual under a second order stepper gets the second derivative) |
| C50, C79, C80 | all of petigaprobe.c except reference counting: span search, off-process test, gathering, broadcast from the root, tables, evaluation; all ranks together, messages as MPI documents them; uninitialised or stale arrays are kept as arbitrary previous contents | span search from C29, cover of the elements from C11/C18, tables from C30/C31/C33/C34/C69; the piece of the field is compared with the sum over all control points; refuted: collocation with unequal knot spans (no process takes the point), settings changed after the point was set |
| C53 | petigadraw.c: resolutions, sizes and widths of the draw grid, the ranges of IGACreateDMDA (line communicators of IGACreateSubComms1D), Lagrange and Greville points, the loops of IGACreateDrawDM (coordinates) and IGADrawVec (values) with the probe of C50; viewers and the DMDA itself (beyond the ranges handed to it) are not modelled | tiling and equal steps from C11, the process holds its points by the cover of C18 (quadrature) and by C57 (collocation), values and coordinates at position lin(t-start) from the tables of C79; in collocation mode the values drawn are not covered, only the location |
| C51 | `IGAComputeScalar` sums | from C11 |
| C81, C82, C83, C84, C85 | all `IGACompute*` drivers as element kernels (form loop, quadrature loop, `IGAPointAddArray`, input and output boundary treatment) run by the assembly of C21; quadrature mode only | loops reduced to sums over pieces and points; scatter algebra; derivative of finite sums; C84 and C85 refuted by witnesses (boundary values ignored by Vector/Matrix forms; sign of loads in RHSFunction) |
| C86, C87 | `IGAComputeErrorNorm`, `ErrorSqr`, `IGAPointEvaluate` on top of the scalar assembly of C21/C51; shape tables of each point are arbitrary functions (their values: C68, C69); derivative tables above the order hold the zeros of `IGAElementInit` | loops reduced to sums; Cauchy-Schwarz for the weighted sums; C87 refuted by three witnesses (k=5 in 1D silently the fourth derivatives, in 2D the work arrays are too small, k above the order gives zero derivatives) |
| C88, C89 | `PCSetUp_EBE`, `ComputeOwnedGlobalIndices`, `PCSetUp_BBB` (with the blocks of C46): reading of blocks row-major, inversion, adding; LAPACK `getrf`+`getri` is an argument with a contract (`inverts`: what it returns is the column-major inverse; it does not stop on positive definite arrays), shown to be met by a bordering algorithm. Not modelled here: creation and preallocation of the matrix B, rounding | principal submatrices and inverses of positive definite matrices are positive definite; every owned node lies in a local element; C88 refuted for periodic directions with fewer than p+1 functions, C89 refuted in parallel |
| C90–C93 | `IGAComputeBDDCGraph` (both passes: counting and filling the compressed rows, whose arrays start with arbitrary contents), `IGAComputeBDDCBoundary`, and from `IGAPreparePCBDDC` the computation of their arguments and the list of primal vertices. `PetscSortInt` is an argument with a contract, met by an insertion sort. Not modelled: the PCBDDC calls themselves, the optional "minimal" list of primal vertices (310-432) | rows of the graph = neighbours on the wrapped local box in the same layer; boundary sets = `node_prescribed` of C11 and the faces; the upper corners of processes are distinct modulo the number of nodes. C90 refuted (a repetition) for one linear periodic element, C91 proved with at most two repeated basis functions per periodic direction, refuted for a cubic one on one process, where the wrapped box has more nodes than the ring |
| C94–C98 | `OptModel.v`: IGASetFromOptions block by block over a record of the options (readers of list options, spreading of single values, defaults taken from the axes, axis re-initialisation, setters with their checks); `OptSpec.v`: the value an option list gives a direction, `built` (what the axis API makes of degree, elements, limits, continuity), equality of IGAs up to memory beyond the knot vectors. C94: full characterisation of the result for any state before set-up, and acceptance. C98: second call is the identity. C95–C97 refuted by concrete option sets (mixed basis types; options absent for the second direction; limits alone), with the part that holds. Not modelled: PETSc's parsing, -iga_load's file (oracle), vector/matrix types, view options. |
| C99–C101 | `TabModel.v`: the tables of values of a direction (second half of IGABasisInitQuadrature, with the memory of the new array as a parameter), the directions i >= dim, the number of points per direction (IGA_Quadrature_SIZE), tensor products of rules, IGAElementBuildTabulation on the interior and on faces up to JW; uses `RuleModel.v` and `MapModel.v`. `TabSpec.v`: tensor sums, rules with enough points, point matrices definite in values or gradients, the diffusion-reaction integrand. C99: all rules whose positive weights come first; refuted for other user rules (values never computed at a used point; number of points of a face 0/0). C100, C101: via C81 (assembled entries), unisolvence of the tensor product spaces (a spline with p+1 zeros per element and direction is zero: `TabPoly.v`, `TabProofs4.v`) and connectivity of the elements; refuted when the rule has only p points. The hypothesis that the geometry's Jacobian is positive at the points is on the model's own value, characterised in C34. Not modelled: collocation, nsd > dim, floating point; C101 leaves out rational functions. |
| C102–C108 | `ColModel.v`: IGABasisInitCollocation, the layout of IGASetUp in collocation, the loop over forms with IGAElementEndPoint, the closure with rowmap, Greville tables, the element copies of control points, JW, assembly with one equation per node, the nonzero structure built by IGACreateMat (AIJ and MATIS), and the boundary conditions; `ColSpec.v`: Greville abscissae, the form of a node, the rows of a collocated system, conditions. C102 refuted for non-uniform periodic axes; C105 for MATIS with periodic axes (reads past the table); C106 when the first of several directions is periodic and not uniform (strides of node and control point boxes differ). C107: the rows of IGAElementFixSystem in collocation, for conditions on components in [0,dof) (this branch does not test them). C108: residual and Jacobian on non-periodic axes, with or without fix table; refuted: the Jacobian keeps the columns of prescribed unknowns in other rows, and loads are ignored. Hypothesis of the set-up beyond success: end intervals nonempty and no more leading images than nodes. Not modelled: floating point (the span search of a rounded abscissa). |
| C109, C110 | `RefModel.v`: heap of objects with counter, owning pointers, pointers copied without reference and a flag for freed blocks; the constructors, destructors, SetForm, Clone, Create{Vec,KSP,SNES,TS,TS2}, the DM calls, {KSP,TS}SetIGA on new solvers and probes as sequences of allocations, references and releases. `RefSpec.v`: what the program holds, what it can reach, which calls are legal, all states of programs. Invariant: counter = references held + owning pointers of live objects, pointers go down a rank of kinds (so the depth of nested destructors is bounded). C110 refuted after IGAReset and IGASetGeometryDim. Simplified: Vec and Mat are one kind, KSP/SNES/TS one kind; a solver's objects are set once, at creation; PETSc's own release of composed objects is as documented; calls that fail end the program. |
| C111, C112 | `FrmModel.v`: struct _n_IGAForm with pointers to its twelve tables, each access through a pointer and an index below 64, IGAFormCreate/Destroy/Reset, the boundary calls; `FrmSpec.v`. C111: simulation of `BCModel.v` (the list-level tables of C22), pigeonhole for the 64 places. C112 refuted for every platform layout (sizes are parameters). Not modelled: memory behind the struct beyond the number of bytes that may be overwritten. |
| C113–C116 | `DmModel.v`: the members of IGA and DM that src/petigadm.c reads and writes; DMCreate, DMIGACreate, DMIGASetIGA, DMSetUp, DMLoad, creation of vectors and matrices, clone, coordinate DM, sub-DM, field index sets and names; ranks and numbering from `GridModel.v`; `DmSpec.v` (`entry`, `describes`, `made`). C113: the index sets of all ranks concatenate to the blocks 0..N-1. C114: the same for strides where the start is right, counting for the missed entry. C115: invariant over all sequences of calls. C116: witnesses. Simplified: PETSc's DM, IS and Layout by their documented effect; IGALoad and IGASetFromOptions are oracles; a failing DMSetUp is taken to leave the DM alone; MatSetFromOptions left out. |
| C117, C118 | `FtnModel.v`: `src/petigaftn.F90`, a Fortran array being its memory and its extents with the column-major rule; the functions of order 0 to 4 are one definition in the order. `FtnSpec.v` gives C's row-major rule. Proved by induction on the extents and over the loops. C118 is false with complex scalars: `IGA_Property` is declared real. Not modelled: interoperability itself (bind(C), `C_F_POINTER`, structure layout). |
| C119, C120 | `VwModel.v`: IGA_ContinuityString (the loop over groups of equal knots) and the reductions of IGAPrint over the layouts of all ranks; `VwSpec.v`: continuity across a knot as degree minus its multiplicity, the range of a set of numbers. C119 by induction on the loop, each step covering one group of equal knots; false when the domain begins inside a repeated knot. C120 from the tilings of C12. Printing itself is not modelled. |
| C121 | `SbModel.v`: FilterLowerTriangular (its in-place loop), the blocks IGACreateMat describes for baij and sbaij, the symmetric preallocation macro, assembly that ignores the lower triangle; `SbSpec.v`: upper triangle, the matrix an upper triangle represents. C121 from the row structure of C19 and a counting argument. PetIGA does not set MAT_IGNORE_LOWER_TRIANGULAR: without it PETSc (not modelled) stops with an error at the first lower block. |
| C122, C123 | `DaModel.v`: IGACreateDMDA with the gathering of the widths along the lines of processes, the three DMs of an IGA, PETSc's DMDA by its documented numbering (`da_start`, `da_index`, natural order in files), VecView_IGA and VecLoad_IGA. C122 from the tilings of C12; C123 as in C17: the pairs (global, natural) are a bijection. Quadrature only: in collocation elements and nodes are divided differently. Not modelled: the file format, VTK, draw and GLVis viewers. |
| C124, C125 | `LdModel.v`: BoundaryArea and the Fortran IGA_BoundaryArea_2D/3D (rationalisation, face Jacobian, control points of a face as the routine reads them). `LdSpec.v`: the integral of a node's function over a face with Coquelicot's `RInt`, from the B-spline definition of `BasSpec.v`. `LdProofs.v`: for an open knot vector the integral of function c is (U[c+p+1]-U[c])/(p+1), via the antiderivative made of degree p+1 functions; the same is the sum of the shares of the elements of its support. C124 then follows by factorising the assembled sums over directions, on top of C81. C125: the Fortran routines return the quadrature of the length or area element of the (polynomial or rational) face, total per face and exactness for constant stretch proved; equal shares refuted for faces of variable speed; dim 2 in three space dimensions refuted. Not proved: periodic tangential directions. Collocation has its own flux term (C107). |
| C126 | `GsModel.v`: OrthonormalizeVecs_Private (classical Gram-Schmidt with VecMDot, VecMAXPY, VecNormalize) and the list of vectors that `-iga_set_bddc_minimal` builds, real scalars, exact arithmetic, arbitrary mask | Loop invariant: orthogonal, unit or null, spans agree at every step. Refuted where the wanted vectors are dependent (the same volume term twice): a null vector is set. Not modelled: the mask. |
| C127, C128 | `OdModel.v`: all of petigaopts.c over a data base that is a map from names to values and a stack of prefixes; the static buffer of IGAGetOptString as a cell that every returned pointer reads; PETSc's conversions of text to numbers are an argument. `OdSpec.v`: the first value that is given | induction over the calls; refuted with a prefix on the stack (the test and the assignment look at different names), with values of more than 1023 characters, and for two strings in use at once |
| C129 | `MkModel.v`: the two counts (processes that use a node, processes that mark it) behind the mask of `-iga_set_bddc_minimal`, dim 1-3, directions that are not periodic. `MkSpec.v`: shared nodes, the middle of a shared layer on a line of processes | 1-D for every layout of IGASetUp (C12) in which no process uses all nodes of the next one: both counts in closed form. Refuted: the last node of the domain is left out, the first is not; in 2-D the bounds of all directions use `fix[0]`, so the mask changes when directions are exchanged |
| C130 | `BpModel.v`: the reserves of `PCSetUp_BBB_CreateMatrix` (in place of what the row of C88, C89 leaves out); the blocks are those of C46. `BpSpec.v`: places written by adding square blocks, room in a row. Format "sbaij" stores part of the tiles counted for "baij"; how PETSc uses the numbers is not modelled | two members of a block differ by at most twice the overlap in each direction (modulo the grid), so a row reaches a box of 4*overlap+1 nodes per direction; with a row that fills the reserve |
| C131 | `EpModel.v`: the structure built by `PCSetUp_EBE_CreateMatrix` from the stored places of A (formats "aij" and "baij"; those IGACreateMat sets, C26); the blocks are those of C88, written places as in `BpSpec.v` | members of an element's block are coupled by that element, hence in the structure of A (C26); ownership leaves them in the diagonal block |
| C132 | `StModel.v`: overlap, ghost ranges, reserve and setupcalled of PC_BBB through PCCreate, PCSetFromOptions, PCSetUp, PCReset. Taken from PETSc: the first set-up never has SAME_NONZERO_PATTERN, PCSetUp sets and PCReset clears setupcalled. `StSpec.v`: the overlap asked for | cases on the state. Refuted: reading the option again after a set-up undoes the limit by the degree while the matrix and its reserve are kept; after a reset the overlap of the earlier space (0 in directions it did not have) stays |
| C52 | index sets of `MatView_MPI_IGA`/`MatLoad_MPI_IGA`; `MatCreateSubMatrix` as selection of rows and columns; `MatView`/`MatLoad` of the natural matrix as the identity | entry by entry, two decompositions |
| C72 | `IGASaveVec`, `IGALoadVec` (with header) | from C17, two decompositions |
| C54 | `IGA_GetNormal` and the boundary branch of `IGAElementBuildTabulation` | unit length, orthogonality to the face tangents, outward side; `sqrt` of the standard library |

Not modelled: floating-point rounding, integer overflow, PETSc/MPI internals, actual memory layout,
allocation failure, option parsing, printing, drawing back ends.

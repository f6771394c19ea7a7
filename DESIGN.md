# Design of the formal model of TEAR-ERC/tandem

The model is written in Rocq (Coq 8.16.1), in `rocq/theories`. Each area has up to four files:

* `<Area>Model.v`: Gallina functions that follow the C++ code. Every definition cites the file and
  lines in `/repo` it models and states its simplifications.
* `<Area>Spec.v`: the vocabulary of the property, written without looking at the model's helpers
  (omitted where the standard library's vocabulary is enough).
* `<Area>Proofs.v`: lemmas.
* `<Area>Props.v`: the property theorems, a concrete `Example` for each showing that its
  hypotheses can be met, and `Print Assumptions`.

Conventions: undefined behaviour and exceptions are explicit outcomes (`None` or an error
constructor); loops are structural recursion, folds, or fuel with an explicit out-of-fuel outcome
and a theorem that enough fuel exists; MPI collectives are modelled as functions on the tuple of all
ranks' inputs; message schedules and crash points are quantified over.
Where the code violates what a user would expect, a theorem with the suffix `_refuted` exhibits it,
and the positive theorem states the condition under which the property holds.

## Plan for each property

| id | what is modelled | how it is proved |
|----|------------------|------------------|
| C01 | `distribute` on Z | arithmetic (`nia`/`lia`) for every range and rank count |
| C02 | prefix sums, guess, both while loops with fuel | loop invariants, monotonicity of prefix sums |
| C03 | `make_displs` with a rank permutation, `MPI_Alltoallv` as function on all ranks | induction on ranks; round trip via disjointness of ranges |
| C04 | cycle-following swaps with fuel | invariant: processed positions final, rest still to be permuted |
| C05 | run detection loop | induction on the sequence |
| C06 | `Choose` and `AllIntegerSums` iterators as successor functions | successor is the immediate lexicographic successor, then induction over the enumeration |
| C07 | flatten/unflatten, iterator | induction on dimension |
| C08 | Lehmer code and its mixed-radix value | induction on N, injectivity plus range, pigeonhole |
| C09 | arena with offset, allocate/reset histories | invariant over histories |
| C10 | Brent iteration over R, one step as a function | invariant for bracket and evaluation points; decreasing bracket length for termination |
| C11 | schema tree and table translation | induction on members |
| C12 | strides, address, subtensor, copy loop | induction on dimension |
| C13 | sorting constructor, `downward` by `Choose` | permutation and subset enumeration (uses C06) |
| C14 | lexer as automaton on characters, recursive-descent parser with callbacks | print/parse round trip by induction on mesh lists |
| C15 | `addElement`, `create` renumbering | invariants on the renumbering map |
| C16 | face extraction with a seen-set | induction on tetrahedra |
| C17 | `tessellate`, `uniformMesh` on each rank | concatenation of chunks (C01), Kuhn simplices |
| C18 | `doPartition` over all ranks | permutation of the multiset through exchange (C03) |
| C19 | `getFaces`, `getContiguousGIDs`, `getSharedRanks` over all ranks | plex-to-rank rendezvous is a function of the vertices |
| C20 | ghost exchange, overlap 1 | adjacency through the rendezvous ranks |
| C21 | upward map construction | induction on elements |
| C22 | scatter plan, pack, unpack, message schedules | list of shared items agreed by both sides |
| C23 | facet info and neighbour tables | case analysis over upward lists |
| C24 | selection, sort, send/receive maps | sorting by (remote, other rank, gid) and uniqueness of sorted lists |
| C25 | apply loop with overlapped scatter | interior elements read only local data |
| C26 | Poisson kernels as finite sums over a field of reals | ring reasoning on sums |
| C27 | adapter sign flip and traction kernels | ring reasoning |
| C28 | face loop with barycentric solver oracle | induction on the face (walk to smaller face) |
| C29 | barycentric map and inverse | linear algebra on lists of reals |
| C30 | locate loop and probe deduplication over all ranks | minimum by fold |
| C31 | character-level CSV writer with seek | induction over write history |
| C32 | offsets and appended bytes, in-place point expansion | induction on arrays, loop invariant |
| C33 | hyperslab selection and extension | induction over records |
| C34 | output strategy and writer state over a history | invariant over histories |
| C35 | operator cache validity over a history | invariant over histories |
| C36-C38 | friction formulas over R | real analysis with the standard library |
| C39 | column-by-column assembly of a linear map | induction on the basis expansion |
| C40-C41 | file system with rename, assembly loop, layout permutation | crash-point induction, permutation algebra |
| C42-C43 | checkpoint slots, pointer file, trigger test, field list | crash-point induction |
| C44 | level lists | induction |
| C45 | first-match lookup, boundary facets of the grid | induction |
| C46 | equidistant nodes by integer sums | uses C06 |
| C47 | CSR construction | induction |
| C48 | assembly over ranks | sum over facets by owner of row |
| C49 | `permute` of faces with their attributes | permutation algebra (uses C04) |
| C50 | the whole configuration schema of app/tandem | characterisation of accepted documents, member by member |
| C51-C52 | bounding-volume search, Newton iteration, facet search over ranks | affine map inverted exactly in one step; minimum over candidates |
| C53 | penalty of the Poisson operator | Young's inequality per facet, inverse trace inequality as hypothesis (proved for linear elements) |
| C54 | `facetBasis` in 2D and 3D | vector algebra over R |
| C55-C57 | Elasticity kernels as finite sums, adapter, matrix-free path, right-hand side | ring reasoning; then C48 with the elastic form |
| C58 | penalty of the elasticity operator | as C53, with the bounds of the stiffness tensor |
| C59 | `prepare_cfl`, minimum over elements and ranks | inverse inequalities, Rayleigh quotient |
| C60 | redistribution, ghosts, tagged facets by hash, facets: composed | composition of C18-C20; elements by global number |
| C61 | C60 followed by assembly | C48 on the composed mesh, labels instead of numbers |
| C62 | `Curvilinear` (nodes, map, Jacobian, normal), `RefPlexToGeneralPlex`, `prepare_bndskl`, `prepare_volume` | cofactor identity, barycentric coordinates on the facet, nodal basis restricted to a facet as hypothesis (proved for linear elements) |
| C63 | composition of the models of C23, C26, C48, C53, C62 | `mesh_problem` reads every coefficient of the form off the global mesh; each rank's arrays are shown to be its restriction; penalty and trace inequality as in C53, trace inequality proved for linear elements |
| C64 | composition of the models of C23, C48, C57-C59, C62; `InverseInequality` | as C63; mass matrices of linear functions on a simplex, facet lengths as lengths of shape gradients, hence both inverse inequalities for every simplex |
| C65 | `JacobiP`, `JacobiPDerivative`, `SingularityFreeJacobiP` with derivatives, `DubinerP`, `gradDubinerP` for D = 1, 2, 3 | induction over the loop with the homogenised explicit series as invariant; coefficient identities of the series for the recursion and the derivative; chain rule |
| C66 | `GaussJacobi` (Newton iteration replaced by its limit), `changeInterval`, `TensorProductRule`, `TabulatedRules`, `AutoRule` | Jacobi differential equation and orthogonality by Newton integrals, Christoffel-Darboux, discrete orthogonality (right inverse is left inverse), division by P_n; beta integrals for the collapsed coordinates; interlacing of zeros by the intermediate value theorem |
| C67 | `ModalRefElement`, `NodalRefElement` with memory as a function of addresses, views and permutations of C12's tensors, `Vandermonde` | orthogonality of the Dubiner basis by collapsed coordinates, dimension count, span by Gram matrix; invariants of the assignment through views and of the loop over slices; Lagrange products for the lattice |
| C68 | `NodalInterpolation`, `ModalInterpolation`, `InterpolationOperator`, `PetscInterplMatrix` (blocks added with global numbers), the loop of `setup_mg` | enumeration of multi-indices of a lower degree is a prefix of that of a higher degree, so the Vandermonde matrices are nested; block assembly on all ranks as in C48; induction over levels with uniqueness of coefficients |
| C69 | `FiniteElementFunction::map`, `gradient`, `Curvilinear::map`, `jacobian`, `jacobianInv`, `detJ`, `normal` on memory, `Error::L2` (elements and facets), `H1_semi`, the reduction | memory invariants of the two in-place loops, chain rule along curves, sum over owned elements as a permutation of all elements, exact quadrature (C66), positivity of the integral of a square (C67) |
| C70 | `LegendreGaussLobattoPoints`, `GaussLegendre`, `WarpAndBlend<1,2,3>`: warp factor, blending on edges and faces, affine map to the reference element; equidistant nodes on facets | parity of Jacobi polynomials, Lagrange interpolation of the displacement, barycentric form of the shift, invariant of the loop over faces, unisolvence of a trace by counting dimensions, gradients of polynomials along curves, C62 for the absence of gaps |
| C71 | `ResidualP_Init/Next`, `KSPSolve_LSPoly`, `KSPLSPolyComputeExtremeEigenvalues_Private` (lspoly.c) | loop invariant: iterate, increment and residual are polynomials in the preconditioned operator; identification of the coefficients with shifted Jacobi polynomials by the three-term recurrence; orthogonality for the least squares problem; Sonin's function for the bound at the end of the interval |
| C72 | `VecOrthonormalize_ModifiedGramSchmidt`, `MatMatMult/KSPMatMult_MatDense_InPlace`, `MatPtAP/MatPtInvAP_MatDense`, `MatDenseSymmetrizeSEQ`, `RandEigsMin/Max`, `PCSetUp/PCApply/PCReset_eigdeflate`; dsyev is an oracle with a specification | invariant of Gram-Schmidt on spans and scalar products; spans through power iterations; Rayleigh-Ritz in the orthonormal basis; closed form of the swaps; eigen-decomposition of Richardson's iteration |
| C73 | `RateAndState::pre_init/init/rhs/state/params/source`, `FrictionOperator::pre_init/initial_condition/rhs/state/params`; Zeroin and the laws of C14 | every loop writes disjoint entries: frame lemma for writes of one node, of one facet and of all facets; the friction law's root at each node from C14; least upper bound for the running maximum |
| C74 | `AdapterOperator::compute_moment_rates`, `mu_avg` (both), kernels `evaluate_moment_rate` | sums of the tensor expressions identified with the quadrature of the facet integral; block layout of the result |
| C75 | `InverseInequality::trace_constant` | Dubiner expansion on the element and on the facet: the orthogonal basis splits the facet integral by facet index, Cauchy's inequality for each with the sum of squares of Jacobi values; equality for the kernel polynomial |
| C76 | constructors of `Poisson` and `Elasticity`, `DGCurvilinearCommon`, `MinQuadOrder`, on top of the models of C24, C63, C64, C66, C67 | C75 moved to each element by the affine map (squares of polynomials as a sum closed under it), then the coercivity theorems of C63 and C64; the constructors' tensors by C67, exactness by C66 |
| C77 | `recursive_mkdir`, `MPICreateDirectory`, `ts_checkpoint_create_path`, names of the files, `ts_checkpoint_configure`; a file system as a function from lists of names, mkdir(2) with its errors | invariant over the characters of the path: exactly the parts before the last slash exist; names by injectivity of decimal printing; the run by induction over the checkpoints |
| C78 | `VTUPiece` with both adapters, `addPointData`, `addJacobianData`; tensors as views of a memory with writes, ranks as a list, gathering as concatenation | per rank: loop invariant over elements (the entries of an element are written once and kept); across ranks: cell c of the piece is element e of rank r, by induction over the ranks; values from `ff_map` and the chain rule of C69 |
| C79 | the same functions as C63 and C76 (assembly and right-hand side of `Poisson`, its constructor, `DGCurvilinearCommon`, rules, geometry) | divergence theorem on the reference simplex for polynomials by nested integrals; moved to an element by the contravariant transformation (the stored normals are det J · J⁻ᵀ n); integration by parts of flux × test function, exact because the rules are; sides of elements regrouped into facets; per facet the jump and average terms cancel against slip and boundary values. `ConsistencySpec.v` says what a solution is without any of this |
| C80 | the functions of C57 and C76 (assembly and right-hand side of `Elasticity`, its constructor), with force, slip and boundary displacement each set or not | integration by parts of C79 for each row of the stress; regrouping into facets; continuity of tractions and the jump conditions cancel the facet terms. `ElasticConsistencySpec.v` states equilibrium by gradients, Hooke's law and tractions |
| C81 | The global matrix of C63 and C76 on a mesh in which every element is `anchored` (an inductive relation over facets and boundary conditions only). | C76 gives a nonnegative form with the penalty exactly on the borderline. If the form vanishes at U, every facet takes its whole share of the energy, so the gradient attains the polynomial trace inequality on every facet: for degree two and more an orthogonality argument (the attaining polynomials of distinct facets) forces it to be zero, for degree one it is parallel to two different normals. Then U is constant per element, the jumps vanish, and induction on `anchored` gives U = 0. Existence: dimension argument for a definite form (`SolveProofs`). With C79 the computed solution is the polynomial solution. Converse: constants on the elements that are not anchored. |
| C82 | The global matrix of C64 and C76 on a mesh in which every element is `anchored`. | The estimate of C58 and C76 is sharpened to an identity of shares: if the form vanishes at U, each facet takes its whole share, so the strain applied to the normal attains the polynomial trace inequality on every facet. With the argument of C81 applied componentwise the strain vanishes in every element, so its displacement is a rigid motion (`RigidProofs.v`: affine, with antisymmetric gradient). The jumps vanish, a rigid motion that vanishes on a facet is zero (`rigid_zero`, dimension two and three), and induction on `anchored` gives U = 0. Existence and exactness as for C81, through C80. Converse: translations of the elements not anchored. |
| C83 | SeasOpModel: both operators of the time integration on all ranks at once, with the scatters (copy at begin, deliver at wait), the slip boundary condition that throws when unset, the Dirichlet time, the stored displacement and traction. Spec: the problem on the whole mesh with global numbers (SeasOpSpec). | Between calls nothing is under way and no slip is set, whatever was called; a view through the exchanged ghosts is the global vector; hence each call computes the rates of the problem. Two distributions agree since the equilibrium is unique (C81, C82). The linear solver is exact (its tolerance is left out); a friction error (C73) is left out. |
| C84 | ElasticityModel and AssembleModel as for C61 and C64. Spec: stored energy, facet force and work, from stresses, jumps and weights (ElasticEnergySpec). | The stored energy is the quadratic form less the load plus a term of the data; difference of two quadratics at equilibrium; the wave equation tested with the velocity. Cases: a strip with a slipping fault at any degree, a swinging and a stretched pair of triangles on two ranks. |
| C85 | The three tables of src/quadrules number by number (QuadTableTri/Tet/JS, generated by tools/gen_quad_tables.py), as exact decimals; transforms and choice as for C66. Spec: polynomial as list of terms, error against the integral, points in the simplex (QuadTableSpec). | A check in fixed-point arithmetic with eighteen digits (QuadTableCheck) on 63-bit integers: all monomials up to the order by one multiplication each, their integrals by a recurrence. Soundness by error propagation (two units per product, one per step of the recurrence), then `vm_compute` on the tables; linearity and uniqueness of the integral for polynomials. |
| C86 | The Lua interface as a stack machine (ScriptModel): push, getglobal, getfield, insert, pcall, pop over a stack of 20 slots; LuaLib's functions step by step; the constructors of SeasScenario, DieterichRuinaScenario and Scenario. The interpreter is a parameter. Spec: which call the script sees and which values it returned (ScriptSpec), without a stack. | Each library function equals one equation over the script's call; histories by induction; constructors by rewriting with those equations. Exceptions leave values on the stack and a raised table is printed as a null pointer: `_refuted` theorems. |
| C87 | The adapter of the moment rate writer (FaultFileModel): the facets with their first element, the equidistant nodes of the facet, getVertices as writes into one buffer with its bounds, write_static as collective creation and writes of two datasets (Hdf5Model) for all ranks | The first D nodes are the vertices; the block of facet e + 1 begins where the D*D numbers of facet e end, so by induction over the facets every facet keeps its vertices; a lemma on collective writes of blocks of rows gives the cells; momentRate's rows by `hdf5_rows` |
| C88 | The BR2 branch of PoissonModel on all ranks (Lift, lift_skeleton, lift_boundary, inverse_mass, penalty) and the constructor of C76; Br2Spec has the bilinear form with liftings given by their variational definition | With a constant Jacobian determinant the weight-adjusted inverse is the inverse of the mass matrix, so the kernel is the lifting (existence and uniqueness from the inverse); assembly by `assembly_complete`; with c constant per element both mixed terms are c times the product of the lifting and the gradient, which is a discrete field because the polynomial space contains derivatives; the square (D+1) abs(r - grad u/(D+1))^2 summed over at most D+1 facets |
| C89 | As C88, with the loads of C79 and the classical solution of ConsistencySpec | Zero energy forces the gradient to be zero and each lifting to be grad u/(D+1) = 0, so the jumps are zero against all polynomials and, being polynomial, at all points; induction along the connection with a boundary where values are prescribed; solvability from positive definiteness by `solvable`; for a classical solution the jump is the prescribed one, so the liftings of form and load agree by uniqueness, and the rest is C79 |
| C90 | The BR2 branch of ElasticityModel on all ranks (mass_matrix, Lift, lift_skeleton, lift_boundary, f_lifted, rhs_lift_*, penalty) and the constructor of C76; ElasticBr2Spec has the bilinear form with tensor liftings given by their variational definition | As C88, with the full mass matrix inverted per element (so no condition on the Jacobian determinant): the inverses that different ranks keep agree because an inverse is unique; Hooke's law commutes with the lifting where the Lame parameters are constant, so both mixed terms are the elastic energy product of lifting and gradient, and the square is taken in that product, which is nonnegative by `energy_density`; on straight elements the mass matrix is the Jacobian determinant times that of the reference element, which C67 inverts |
| C91 | As C90 and the right-hand side, on the operator that the constructor builds | Zero energy means that no estimate of C90 loses anything: on every facet the strain of the element is D + 1 times the symmetric part of the lifting, so it is orthogonal to all functions that vanish on some facet and therefore zero, and then so are the jumps; the displacement is one infinitesimal rigid motion through connected elements, and zero where it is prescribed. The liftings of the jump of the equilibrium and of the data coincide, so they drop out of the residual and the consistency of C80 applies |
| C92 | Affinity.cpp and print_affinity; sets of CPUs as functions, words as binary numbers, the undefined shift as an arbitrary number | An invariant over the CPUs already written gives the text; bits of the words after the loops and the reduction; for the refutation, any value of `1 << 32` shares a bit with the word of a CPU below 32 or is lost |
| C93 | PoissonModel and AssembleModel as for C26. Spec: energy, facet force and work from gradients, jumps and weights (PoissonEnergySpec). | As C84 for the scalar operator: the energy is half the form less the load plus a term of the data; the reported flux is reduced to the facet force with the pieces of C26. Case: strip with a slipping fault at any degree. |
| C94 | app/warp-blend-opt.cpp (search, samples, estimate) and LebesgueFunction (WarpOptModel). Spec: unimodal functions, k-to-one maps that keep volume, the norm of interpolation at a point. | Invariant of the bracket with the golden identity; explicit affine preimages; the inverse of the transposed Vandermonde matrix gives the nodal basis of C67. |
| C95 | Stopwatch, Profile (begin, end, print), Summary, TablePrinter (ProfileModel). Spec: time between entering and leaving a region, the k-th value in the order of size, lines that show items at the right end of their columns. | Induction on the events with the state of one region; counting in a sorted list; induction on the columns. |
| C96 | Managed.h: size of the storage in std::size_t, construction, moves, destruction, access, on a heap (ManagedModel). Spec: tensors as values without memory. | Refinement: an invariant relates values to objects and blocks (one owner each, none unowned), kept by every statement. |
| C97 | PetscVector (numbering of blocks, add_block, insert_block, access) and vecnest_util.c (saving and loading) over all processes (PetscVecModel). Spec: the sum of what was added to an entry; equality of vectors. | Arithmetic of prefix sums and blocks; induction on the calls and on the parts. |
| C98 | check-bc.cpp (find_facets, check_bc) and the constructor of CurvilinearBoundaryVTUAdapter on a local mesh (CheckBcModel). Spec: the cell (element, face) shows the facet whose vertices are those of the element without the vertex opposite to the face (CheckBcSpec). | The facets found are those of a filter; the first element above a facet is one of this process, and its face at the found position has the facet's vertices by the numbering of faces (C13) and the duality of upward and downward (C21). |
| C99 | The functions of Vector.h on lists of reals (VecModel, VecCrossModel). Spec: coordinates, sum of products, stretched vectors, determinant by Sarrus' rule (VecSpec). | Induction over the coordinates; the triangle inequality from Cauchy-Schwarz; the vector product by expansion. |
| C100 | Range.h and Enumerate.h with numbers modulo 2^64 and a range-based for loop (RangeModel). The specification is in the statements: the list of visited numbers. | Induction over the number of steps, with the distance to the end modulo 2^64 as measure; the enumerated loop by induction over the fuel of the plain loop. |
| C101 | Hash.h and the switch of GMSHLexer.cpp on it (GmshModel). Spec: typing errors as an inductive relation (HashSpec). | A step of the hash is injective in both arguments, since its factor has an inverse modulo 2^64; the finitely many misspelt section names are enumerated, and the enumeration is proved complete. |

All properties can be expressed in the model; none is "not applicable".

## What is modelled

| directory | modelled | not modelled |
|-----------|----------|--------------|
| src/util | Algorithm.h, Combinatorics.h, Hash.h, LinearAllocator.h, Math (binomials), MultiIndex.h, Permutation.h, Range.h, Enumerate.h, Schema.h, SchemaHelper.h, Stopwatch.h, TablePrinter, Zero.cpp | SimplexHash (any function), Traits, Typelist |
| src/parallel | CommPattern, Distribute.h, DistributedCSR.h, Scatter.h, ScatterPlan.cpp, SimpleScatter.h, SortedDistribution.cpp, SparseBlockVector.h, LocalGhostCompositeView.h, Affinity, MetisPartitioner (its input), Profile, Summary | ParMETIS itself (any partition vector), MPITraits |
| src/mesh | GenMesh, GlobalSimplexMesh, LocalFaces.h, LocalSimplexMesh.h, Simplex.h | MeshData.h beyond "one value per entity" |
| src/io | CSVWriter, TableWriter, TecplotWriter, GMSHLexer, GMSHParser, GlobalSimplexMeshBuilder, HDF5MeshParser, HDF5Writer, HDF5Adapter, HDF5ProbeWriter (layout), PVD/VTU writers, ProbeWriter and BoundaryProbeWriter (location, files), ProbeWriterUtil | libhdf5 beyond hyperslab semantics, tinyxml, Endianness |
| src/form | DGOperatorTopo, DGOperator.h, BoundaryMap, DGCurvilinearCommon (C62; given arrays in the operators), InverseInequality (both constants), FacetInfo, RefElement, InterpolationOperator, Error, FiniteElementFunction | |
| src/geometry | PointLocator, SimplexDistance.h (and the barycentric solver), Vector.h, Curvilinear (nodes, map, Jacobian, determinant, inverse, normal, area, volume), Affine.h | ReferenceNormal tables other than through their formula |
| src/tensor | TensorBase.h, Tensor.h, Managed.h, Utility.h, Reshape | EigenMap.h |
| src/basis, src/quadrules | Equidistant nodes, NumberingConvention, num_nodes, Jacobi polynomials, Dubiner basis, Gauss-Jacobi, tensor product, the tabulated rules and their selection, Gauss-Lobatto points, WarpAndBlend and GaussLegendre nodes, LebesgueFunction | Newton iteration and its rounding errors, rounding of the tables to double |
| src/script | LuaLib | Lua itself (a parameter of the model: any values, results and errors) |
| app/common | Scenario.h, ElasticityScenario.h, PoissonScenario.h, MGConfig, MeshConfig (through C45, C50), PetscDGMatrix (insertion), PetscInterplMatrix, PetscLinearSolver::setup_mg (operators of the levels), PetscTimeSolver (checkpoints), PetscVector, vecnest_util.c | PETSc's solvers, PetscDGShell, PetscLoggingUtils |
| app/form | AdapterOperator, FrictionOperator, FacetFunctionalFactory, SeasQDOperator, SeasQDDiscreteGreenOperator, SeasFDOperator | order of steps of PETSc's time integrators |
| app/localoperator | Poisson, Elasticity, both adapters, DieterichRuina*, RateAndState (per node and node loops), Modal/NodalInterpolation | - |
| app/kernels | the tensor expressions of poisson.py, elasticity.py and the adapters, as sums | the code Yateto generates |
| app/tandem | AdaptiveOutputStrategy, FrictionConfig.h, Monitor, SeasConfig, SeasScenario.h, SeasSolution.h, parts of SEAS.cpp and Writer.h | Context*, command line |
| app (programs) | warp-blend-opt.cpp (search, samples, estimate), check-bc.cpp, test-mesh/test-gauss not | command lines of the programs |
| app/pc | lspoly.c, eigdeflate.c, reig_aux.c | option parsing, MatSetRandomConsistent (unused) |

Floating-point arithmetic is modelled by exact real arithmetic everywhere except where the property is
about the representation (lexer, tables, byte layout). Machine integers are natural numbers or Z; where
they can overflow the hypothesis is stated (for example fewer than 2^64 elements).

## Findings in the code

Each has a `_refuted` theorem or is excluded by a hypothesis that names it.

* warp-blend-opt. `--tolerance 0` (or negative) makes the search run forever (`golden_section_ends_refuted`).
* TablePrinter. With names but no widths the constructor calls `back()` on an empty vector (`table_header_refuted`); its comment promises max(widths, names) columns.
* Managed.h. The size of the storage wraps: 2^61 doubles ask for 0 bytes (`storage_size_refuted`; no such mesh fits in memory). A tensor whose value was moved away is not empty: it still reads and writes the new owner's memory, and freed memory later (`moved_from_empty_refuted`).
* vecnest_util.c. With a viewer that is neither ASCII nor binary, saving a nested vector succeeds and writes nothing (`nested_vector_other_viewer_refuted`); loading then fails.
* Quadrature tables. The numbers are rounded decimals, so the rules are not exact as they stand
  (`triangle_rules_exact_refuted` for the first); C85 bounds the error. The triangle rule of order 16 has points on the boundary.

* Coefficients. From degree two on, a coefficient that is positive at all nodes may be negative at a quadrature
  point (`nodal_sign_refuted`), and the operators do not check it; C76 asks for coefficients within the range of
  their nodal values.  MIN_QUADRATURE_ORDER below twice the degree is accepted by the build; C76 excludes it.
* Fault. With zero shear traction and zero slip rate the slip rate vector is 0/0 in `RateAndState::rhs`;
  `std::max` drops it, so neither VMax nor the error code shows it (`fault_rhs_nan_refuted`).
  `throw;` without an active exception (FrictionOperator.h:85,126) ends the program; modelled as
  `Terminated`. `*range = ...` assigns through an empty optional (FrictionOperator.h:193,223,
  DGOperator.h:312,343): undefined behaviour; modelled as the evident intent.

* Operators. An interior facet tagged Natural is assembled but skipped by the matrix-free path; an
  untagged boundary facet is assembled as Dirichlet facet and applied as interior facet; the BR2 method
  is applied with interior-penalty fluxes (Poisson and Elasticity). BR2 blocks are not symmetric when the
  coefficient varies along a facet. `mu_avg` (Poisson.cpp:723-736) indexes volume nodes by a facet's
  quadrature points, so that the moment rate of a varying material is wrong (`poisson_moment_rate_refuted`)
  and with first-order tetrahedra the next element's material is read
  (`poisson_moment_rate_overrun_refuted`). `mu_avg` aborts on boundary fault facets although tractions handle
  them (`moment_rate_boundary_refuted`). Traction of a facet whose boundary function is unset reads uninitialised data.
  Penalties use extreme values at nodes, not of the field. `wave_rhs` ignores body forces.
  `project` is not exact on curved elements. The bounds of the stiffness tensor are right only for
  lambda >= 0. `prepare_cfl` omits the inverse density on the penalty term, so that the bound does not
  hold for density below one (`time_step_density_refuted`).
* Error norms. `Error::H1_semi` reads entry i*Q+j of the reference gradient where row-major order with D columns needs i*D+j; both agree for one quantity and for D quantities (`h1_error_refuted` for Q = 2, D = 3).
* Basis. `gradDubinerP<1>` lacks the factor two of the chain rule (`dubiner_gradient_interval_refuted`); no caller uses it yet.
* Polynomial smoother. An eigenvalue above the estimated bound is amplified, and so is the largest one when alpha exceeds beta by more than one (`lspoly_small_bound_refuted`, `lspoly_large_alpha_refuted`); the options accept both.
* Deflation preconditioner. The coarse correction overwrites the result of pre-smoothing (`pc_presmoothing_lost_refuted`); the function is registered as its own transpose although post-smoothing makes it unsymmetric (`pc_transpose_refuted`); after a reset the residual vector is not created again (`pc_reset_refuted`); set-up fails for fewer than six unknowns (`pc_setup_succeeds`).
* Fault. The tolerance tests of `facetBasis` do not reject almost parallel vectors; the sign of the facet
  functional depends on the side when the scalar product is zero.
* Point location. The residual is overwritten per component and 0/0 raises an exception
  (`locate_throws_refuted`); the iteration may stop early (`locate_inexact_refuted`); the boundary locator
  scans from the first key to the end of the map (`foreign_facet_refuted`); an exception on one rank leaves the
  others in MPI_Allreduce.
* Configuration. The default of an optional member is ignored, defaults are not validated; a node that is no table
  counts as empty table; text after a number is accepted; names are matched by prefix, so that "" is a
  mode; t_max < t_min is accepted.
* Discrete Green's functions. The window of the unit slip uses `ind.m` for `ind.n`; a partial checkpoint resumed with
  another number of ranks leaves columns uncomputed; gf_vec.bin does not record the layout and is overwritten in place; the backup is
  never read.
* HDF5. A resumed run always fails, at the latest when the geometry is written again (`fault_geometry_restart_refuted`); facet numbers from 2^31 - 1 on are all stored as 2^31 - 1 (`fault_number_refuted`); a fault without facets is a dataset with an empty chunk, which the library refuses; rewriting row k > 0 reads k+1 records; names are padded to the local maximum
  but typed with the global one; several functions per probe are laid out wrongly; faultNo is an INT dataset written as LLONG. The mesh
  reader overflows `dims[2]` and accepts a short /group.
* Gmsh. Malformed sections are reported as success; an untagged element inherits a tag; CRLF, a trailing blank line or
  a missing final newline do not terminate; node numbers are not bounded. Two element sections make the builder write out of range;
  dangling node numbers are accepted.
* Mesh generation. A region with no cell gives NaN; the element size can exceed the requested one; iterators run past the end.
* Parallel. `SortedDistribution` fails for an empty range; AllToAllV for no ranks; some scatter
  plans and AllToAllV objects are built without the communicator of their mesh. Volume tags do not follow
  `permute`.
* Masks of CPUs. `1 << (cpu % 64)` (Affinity.cpp:47,56) shifts an int, which is undefined from 32 on, and every
  run evaluates it; masks of nodes with more than 32 CPUs are wrong (`node_mask_refuted`). With 11, 21, ... CPUs a bar is
  missing and a CPU too many is shown (`last_group_refuted`).
* Checkpoints. MPI_Bcast is called only by ranks other than 0 (PetscTimeSolver.h:63-100).
* Directories of checkpoints. `recursive_mkdir` reports only the last call's error, so a directory further up that cannot be created ends in ENOENT, which is not fatal (refused_parent_refuted). errno is not reset before, so an old error ends the program although the directory was created (old_error_aborts_refuted). A regular file with the directory's name gives EEXIST and goes unnoticed (file_in_place_refuted). With an empty save directory last_checkpoint.txt is written to the root directory (pointer_without_prefix_refuted).
* Fully dynamic mode. `SeasFDOperator::initial_condition` begins the exchange of ghosts before it sets the displacement and the fault state (SeasFDOperator.cpp:33-48), so with an initial displacement the initial fault state depends on the partition (`fd_initial_condition_on_two_ranks_refuted`). `MonitorFD` writes the traction of the last rate evaluation, which for integrators that are not "first same as last" belongs to a stage, not to the accepted state (`fd_boundary_output_is_stale_refuted`). With `type = "poisson"` the mode is accepted, but the local operator has no wave equation, so the rate of the velocity is never written (`fd_poisson_velocity_rate_refuted`).
* Output for visualisation. `CurvilinearVTUAdapter::jacobianInv` (VTUAdapter.h:57-62) does not add the beginning of the range of elements, `map` (47-49) does: for a range that does not begin at 0 the derivatives are computed with another element's Jacobian (derivatives_of_a_range_refuted). All ranges in the repository begin at 0.

- **Exit status of check-bc (C98).** The program returns 0 when the mesh cannot be read, when the dimension is not supported and when the arguments are wrong, although nothing is written (check_bc_status_refuted).
- **Hash instead of comparison (C101).** Names are taken for each other when their hashes agree; distinct texts with the same hash exist (hash_distinct_refuted).
- **Script errors (C86).** An exception leaves its operands on the Lua stack: a program that catches 20 of them overflows the stack
  (`caught_errors_exhaust_stack_refuted`; the apps do not catch them). A script that raises a table or nil makes the code stream a null
  `char const*` (`every_error_reported_refuted`). A script that fails while it is loaded is reported on stderr and used all the same, so
  members it did not get to define silently take their defaults (`failed_script_stops_run_refuted`). The default of `lam` is 0 in
  SeasScenario and 1 in ElasticityScenario (`default_lam_agrees_refuted`).

## Trusted base

* Coq 8.16.1's kernel (`coqchk` is run by the gate).
* Axioms: only those of the standard library. `ASSUMPTIONS.md` (generated by `tools/assumptions.py`) lists
  what `Print Assumptions` gives for each theorem of MANIFEST.json. They are
  `ClassicalDedekindReals.sig_forall_dec`, `ClassicalDedekindReals.sig_not_dec` and
  `FunctionalExtensionality.functional_extensionality_dep` (from the construction of R and from functional
  extensionality) and, for the theorems of real analysis, `Classical_Prop.classic`. Theorems that do not
  speak about reals are closed.  The theorems of C85 also depend on the standard library's 63-bit integers:
  the primitives `int`, `add`, `sub`, `mul`, `mulc`, `div`, `diveucl_21`, `lsr`, `land`, `eqb`, `ltb`, `leb` of `PrimInt63`
  and their axioms `add_spec`, `sub_spec`, `mul_spec`, `mulc_spec`, `div_spec`, `diveucl_21_spec`, `eqb_correct`,
  `ltb_spec`, `leb_spec` of `Uint63`.
* The model's faithfulness to the C++ text, which was read, not extracted. `seeded/LOG.jsonl` records the
  edits the theorems were tested against.
* Assumed behaviour: MPI collectives deliver what the standard says; messages between two ranks keep their order; C++ standard
  library algorithms (unstable sorts: any sorted outcome; unordered containers: any iteration order); the
  absent submodule `mneme` (storage, spans and displacements) as used; POSIX rename is atomic; HDF5, PETSc,
  ParMETIS, Lua and Yateto as stated beside the definitions.

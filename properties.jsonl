{"id": "C01", "title": "Even distribution of a range over ranks", "statement": "distribute(range, rank, size) cuts [from,to) into consecutive chunks, one per rank: the first starts at from, each starts where the previous one ended, the last ends at to, so every index belongs to exactly one rank; chunk lengths differ by at most one and the longer chunks come first.", "quantifier": "all ranges from<=to, all rank counts size>=1, all ranks", "why_tests_cant": "Infinitely many (length, size) pairs; a boundary error appears only for particular remainders.", "anchors": ["src/parallel/Distribute.h:distribute"]}
{"id": "C02", "title": "Owner lookup in a sorted distribution", "statement": "For the prefix-sum array built from any per-rank counts, SortedDistributionToRank(id) terminates and returns the one rank whose half-open id range contains id, for every id below the (non-zero) total; an id at or above the total whose first guess (id divided by the average count) is a rank gives the number of ranks, which is not a rank.", "quantifier": "all rank counts, all per-rank counts (including empty ranks), all ids", "why_tests_cant": "The guess-and-walk search depends on how uneven the counts are; tests try a few.", "anchors": ["src/parallel/SortedDistribution.cpp:makeSortedDistribution", "src/parallel/SortedDistribution.h:SortedDistributionToRank"]}
{"id": "C03", "title": "All-to-all exchange delivers every block to the right place", "statement": "With displacements computed by make_displs (identity or any rank permutation) the blocks of the send and receive buffers are disjoint, in bounds and cover the buffer; after exchange, the part of rank q's result described by recvRange(p) is exactly what rank p put in sendRange(q); exchanging back after swap() returns every rank's original buffer.", "quantifier": "all numbers of ranks, all send-count matrices, all buffers, all rank permutations", "why_tests_cant": "Quantifies over all communication patterns on all process counts.", "anchors": ["src/parallel/CommPattern.cpp:make_displs,AllToAllV", "src/parallel/CommPattern.h:AllToAllV::exchange,recvRange,sendRange,swap,setRankPermutation"]}
{"id": "C04", "title": "In-place permutation", "statement": "apply_permutation(A, p) terminates for every permutation p and leaves A[i] = old A[p[i]] for every i, without reading or writing out of bounds; applied to a mode of a tensor of dimension two or more it does the same for every choice of the other indices and changes no other cell.", "quantifier": "all lengths, all permutations, all contents", "why_tests_cant": "n! permutations with arbitrary cycle structure.", "anchors": ["src/util/Algorithm.h:apply_permutation,SwapTensor"]}
{"id": "C05", "title": "Contiguous-run detection", "statement": "find_blocks splits a list of indices (below 2^64-1) into maximal runs of consecutive integers: the runs are non-empty, concatenated they are the list, and a run is never continued by the next one.", "quantifier": "all sequences", "why_tests_cant": "Unbounded input sequences.", "anchors": ["src/util/Algorithm.h:find_blocks"]}
{"id": "C06", "title": "Combination and integer-sum iterators enumerate exactly", "statement": "Choose<k>(n) yields every k-subset of {0..n-1} exactly once, in increasing lexicographic order, and binom(n,k) of them; AllIntegerSums<D>(N) yields every D-tuple of non-negative integers with sum at most N exactly once.", "quantifier": "all k<=n; all D, N", "why_tests_cant": "Iteration counts are unbounded; a wrong carry shows up only for some n,k.", "anchors": ["src/util/Combinatorics.h:Choose,AllIntegerSums,binom"]}
{"id": "C07", "title": "Multi-index flattening is a bijection", "statement": "flatten maps in-range multi-indices into [0, product of extents), unflatten is its two-sided inverse, permuting an index and then permuting with the inverse permutation gives the index back, and iterating MultiIndex visits every in-range index exactly once in flatten order when all extents but the last are positive.", "quantifier": "all dimensions, all extents, all indices", "why_tests_cant": "Unbounded extents and dimension.", "anchors": ["src/util/MultiIndex.h:flatten,unflatten,permute,product"]}
{"id": "C08", "title": "Permutation numbering is a bijection onto 0..N!-1", "statement": "Lehmer code / Lehmer_to_integer give distinct numbers in [0,N!) to distinct permutations and every number in [0,N!) is hit, for every N up to 12 (13! no longer fits the 32-bit result).", "quantifier": "all N <= 12 (for the bound on the result),  all permutations of N items", "why_tests_cant": "N! permutations for every N.", "anchors": ["src/util/Permutation.h:Lehmer,Lehmer_to_integer"]}
{"id": "C09", "title": "Scratch allocator hands out disjoint in-bounds memory", "statement": "Between resets, every block of n>=1 elements returned by the linear allocator lies inside the arena, is aligned, and is disjoint from every other live block; a request that does not fit throws and changes nothing; reset makes the whole arena available again; an arena of allocation_size summed over the requests is always enough (all sizes positive, total below 2^64).", "quantifier": "all request histories, all arena sizes and alignments", "why_tests_cant": "Ranges over all histories of allocate/reset.", "anchors": ["src/util/LinearAllocator.h:LinearAllocator,allocation_size"]}
{"id": "C10", "title": "Scalar root finder keeps a bracket, converges and terminates", "statement": "zeroIn(a,b,F,tol) for a continuous real F with sign change: every point at which F is evaluated lies in [a,b]; a sign-changing bracket is kept throughout; it terminates for tol>0; the value returned is within tol + 4 eps |x| of a sign change of F (so of a root), and it has the smaller residual of the bracket end points. It rejects end points with the same sign.", "quantifier": "all continuous F, all a,b, all tol>0 (exact real arithmetic)", "why_tests_cant": "All functions and all intervals.", "anchors": ["src/util/Zero.cpp:zeroIn"]}
{"id": "C11", "title": "Schema translation of configuration tables", "statement": "Translating a table fills every member exactly as specified: given keys go through the member's conversion and validation, missing keys get the default, a missing key without default and an invalid value are errors whose message leads to the fault, unknown keys change nothing, and the result does not depend on key order. Plain values given on the command line replace those of the file.", "quantifier": "all schemas, all tables", "why_tests_cant": "Arbitrary tables and schema shapes.", "anchors": ["src/util/Schema.h:TableSchema,ArraySchema,ValueSchema", "src/util/SchemaHelper.h:iEquals"]}
{"id": "C12", "title": "Tensor addressing", "statement": "For every shape the address map of a packed tensor is a bijection from in-range index tuples onto [0,size); a subtensor built from ranges and fixed indices refers to exactly the parent's elements with those indices substituted; copy_values copies every element and nothing else; reshape keeps the linear order.", "quantifier": "all dimensions, shapes, index tuples, slices", "why_tests_cant": "Unbounded shapes.", "anchors": ["src/tensor/Tensor.h:TensorBase,Tensor", "src/tensor/Reshape.h:reshape", "src/tensor/Managed.h:Managed"]}
{"id": "C13", "title": "Faces of a simplex", "statement": "Simplices compare equal iff they have the same vertices, whatever order they were given in; downward() lists each face of the requested dimension exactly once (binom(D+1,d+1) of them), each a sorted subset of the vertices; the order is the documented facet numbering and depends only on the vertex set.", "quantifier": "all dimensions, all vertex tuples", "why_tests_cant": "All vertex orders and dimensions.", "anchors": ["src/mesh/Simplex.h:Simplex,downward"]}
{"id": "C14", "title": "Gmsh mesh files are read back faithfully", "statement": "For every well-formed version-2 ASCII file with a newline at the end of its last line and nothing after it, in which every element has a tag, parsing succeeds without a message and tells the mesh builder every vertex and element once, in file order, with the coordinates, type, first tag and zero-based node numbers written in the file. For every text whatsoever, if parsing ends without an error message then the text is such a well-formed file: wrong node tags, out-of-range element types, node numbers below one, missing numbers and missing section ends always leave a message. Whatever the text, the builder is only given vertices below the announced number and elements with the number of nodes of their type, and the loop over sections ends unless the lexer meets an unknown character.", "quantifier": "all meshes, all spellings of white space", "why_tests_cant": "Unbounded input texts.", "anchors": ["src/io/GMSHLexer.cpp:GMSHLexer::getToken", "src/io/GMSHParser.cpp:GMSHParser"]}
{"id": "C15", "title": "Mesh builder keeps elements, renumbers vertices and attaches boundary tags", "statement": "The mesh builder keeps exactly the D-simplices and the (D-1)-simplices of the calls, in order, with their tags; it throws if and only if an element is not a simplex or the D-simplices have different types; the mesh has the coordinates of the file, vertices being renumbered without merging or losing any (with high order elements the new vertices are exactly the vertices of elements); a boundary facet of the mesh is one of the faces of an element of the mesh exactly if its vertices in the file are vertices of the element, and it carries the condition its tag stands for; every high order node is stored at the position that has, with respect to the sorted vertices, the weights the node has in the file. All this holds for one section of nodes and one section of elements.", "quantifier": "all element lists", "why_tests_cant": "All meshes.", "anchors": ["src/io/GlobalSimplexMeshBuilder.cpp:addElement,create"]}
{"id": "C16", "title": "HDF5 (PUMGen) mesh import finds every face once", "statement": "Reading connectivity and packed boundary words emits every distinct triangular face of the tetrahedra exactly once with the boundary tag of the first tetrahedron that has it; if neighbouring tetrahedra agree on the tag this is the tag of the face on either side.", "quantifier": "all connectivity arrays and boundary words", "why_tests_cant": "All meshes and tag words.", "anchors": ["src/io/HDF5MeshParser.cpp:retrieveLowerDimensionalElements,addAllElements"]}
{"id": "C17", "title": "Generated box mesh does not depend on the number of processes", "statement": "uniformMesh on any number of ranks yields, concatenated in rank order, the same element and vertex lists as on one rank, with all vertex ids in range; all elements are distinct, each lies in one grid cell, is not degenerate, and the 2 triangles or 5 tetrahedra of a cell have the cell's volume in total; the mesh is conforming: a facet on the outside of the box belongs to one element, every other facet to exactly two. Vertex coordinates grow with the grid index and hit the configured corner points. (Every dimension must have at least one cell.)", "quantifier": "all grid extents, all rank counts", "why_tests_cant": "All grid sizes and process counts.", "anchors": ["src/mesh/GenMesh.cpp:uniformMesh,tessellate"]}
{"id": "C18", "title": "Redistribution loses no element", "statement": "Partitioning moves every element, with its vertices and its attached data, to exactly the rank the partition vector names: each rank ends up with exactly the (element, data) pairs assigned to it, grouped by source rank, and over all ranks no pair is lost or duplicated. The mesh only counts as partitioned by hash when every element is on the rank its hash selects.", "quantifier": "all meshes, all partitions, all rank counts", "why_tests_cant": "All partitions.", "anchors": ["src/mesh/GlobalSimplexMesh.cpp:doPartition,partition"]}
{"id": "C19", "title": "Faces have one owner and consistent global numbers", "statement": "After face construction on a partitioned mesh, every rank holds exactly the faces of its elements, each once, those of its local elements first; copies of a face on different ranks carry the same global id and the same owner, different faces carry different ids; ids of vertices are the vertex numbers and ids of higher-dimensional faces are exactly 0..n-1 (n distinct faces over all ranks); the shared-rank list of a face on a rank is exactly the other ranks that have it, each once; a vertex carries the coordinates read for its number and a boundary face the condition of its boundary element (None if there is none). The owner is a rank determined by the vertices of the face; it need not hold the face.", "quantifier": "all partitions, element lists, rank counts, plex-to-rank functions and message arrival orders", "why_tests_cant": "All partitions and interleavings.", "anchors": ["src/mesh/GlobalSimplexMesh.h:getFaces,getContiguousGIDs,getSharedRanks,getPlex2Rank,getVertexLID", "src/mesh/MeshData.h:VertexData,BoundaryData"]}
{"id": "C20", "title": "Ghost layer is complete", "statement": "With overlap 1, the local mesh of a rank contains, besides its own elements, exactly the elements of other ranks that share a facet with one of its elements, each once and with its vertices and element data.", "quantifier": "all partitions, all rank counts", "why_tests_cant": "All partitions.", "anchors": ["src/mesh/GlobalSimplexMesh.cpp:getGhostElements"]}
{"id": "C21", "title": "Upward and downward adjacency are dual", "statement": "In a local mesh, element e is in upward(f) iff f is in downward(e), upward(f) is exactly the set of elements that have all vertices of f, in increasing order without repetition.", "quantifier": "all local meshes", "why_tests_cant": "All meshes.", "anchors": ["src/mesh/LocalSimplexMesh.h:makeUpwardMap,upward,downward"]}
{"id": "C22", "title": "Ghost exchange yields the owner's values", "statement": "When wait_scatter returns on a rank after its k-th begin_scatter, every ghost block holds the value its owner had in x at its own k-th begin_scatter, whatever the message order and the time of completion, and whatever is written to x meanwhile; own blocks show the current x. begin_scatter is always defined on an idle rank, and if all ranks have begun equally often then some incomplete request can complete, so that no rank waits for ever.", "quantifier": "all families of shared items whose owners, shared ranks and orders are consistent across ranks, all iteration orders of the maps, all interleavings of writes, begins, sends and receives over any number of rounds", "why_tests_cant": "All schedules and patterns.", "anchors": ["src/parallel/ScatterPlan.h:ScatterPlan", "src/parallel/ScatterPlan.cpp:setup", "src/parallel/Scatter.h:begin_scatter,wait_scatter", "src/parallel/SimpleScatter.h:scatter", "src/parallel/SparseBlockVector.h:SparseBlockVector", "src/parallel/LocalGhostCompositeView.h:LocalGhostCompositeView"]}
{"id": "C23", "title": "Facet neighbour tables are symmetric", "statement": "For every interior facet, the neighbour information of each adjacent owned element names the other element, the facet and the other's local facet number, and for boundary facets names the element itself; the two sides see the same facet with opposite side numbers, and the non-zero counts used for matrix preallocation equal the number of blocks actually assembled per row.", "quantifier": "all local meshes", "why_tests_cant": "All meshes.", "anchors": ["src/form/DGOperatorTopo.cpp:DGOperatorTopo", "src/form/DGOperator.h:assemble"]}
{"id": "C24", "title": "Distributed boundary numbering agrees across ranks", "statement": "BoundaryMap numbers the facets with a given boundary condition so that each shared facet is local on exactly one rank (the lower one), local facets come first, face and boundary numbers are mutually inverse, and for each pair of ranks the sender's list and the receiver's list name the same facets in the same order.", "quantifier": "all meshes, partitions and boundary conditions", "why_tests_cant": "All partitions.", "anchors": ["src/form/BoundaryMap.cpp:BoundaryMap"]}
{"id": "C25", "title": "Operator application is independent of communication timing", "statement": "If the ranks pass their parts of one global vector X to an application, then whatever the arrival times of the messages the overlapped application never lacks a block it reads, processes every local element exactly once, and each result block is the local operator applied to X on the element and on the elements behind its facets.", "quantifier": "all consistently distributed meshes, all vectors, all interleavings of message events with the element loops, any number of earlier exchanges", "why_tests_cant": "All schedules.", "anchors": ["src/form/DGOperator.h:apply_"]}
{"id": "C26", "title": "Matrix-free application equals the assembled interior-penalty matrix", "statement": "For the Poisson local operator with interior penalty, on a mesh whose boundary facets all carry a boundary condition and whose interior facets are not tagged natural, matrix-free application of an element equals the element's row of the assembled matrix times x, for interior, Dirichlet, fault and natural facets and whichever side of a facet the element is on. The assembled blocks are symmetric. Constants are in the kernel of the rows whose boundary facets are natural. The residual of a fault or Dirichlet facet is the reported traction tested with the jump, plus terms in the deviation of the jump from the prescribed one.", "quantifier": "all geometry factors, coefficients, basis values, weights and penalties (exact arithmetic)", "why_tests_cant": "All element geometries and coefficient fields.", "anchors": ["app/localoperator/Poisson.cpp:assemble_volume,assemble_skeleton,assemble_boundary,apply", "app/kernels/poisson.py"]}
{"id": "C27", "title": "Slip and traction do not depend on element orientation", "statement": "Exchanging the two sides of a fault facet (which reverses its geometric normal) leaves the on-fault traction and the displacement jump imposed for a given slip unchanged as physical quantities.", "quantifier": "all facet geometries, states and displacement fields (exact arithmetic)", "why_tests_cant": "All geometries.", "anchors": ["app/localoperator/AdapterBase.cpp:prepare", "app/localoperator/PoissonAdapter.cpp", "app/localoperator/Poisson.cpp:traction_skeleton"]}
{"id": "C28", "title": "Point-to-simplex distance finds the closest point", "statement": "The distance routine returns a point of the simplex, and no point of the simplex is closer to the query.", "quantifier": "all simplices with affinely independent vertices, all query points, all dimensions (exact arithmetic)", "why_tests_cant": "Continuum of inputs.", "anchors": ["src/geometry/SimplexDistance.h:SimplexDistance,BarycentricSolver"]}
{"id": "C29", "title": "Affine maps between reference and physical simplex are inverse", "statement": "RefPlexToGeneralPlex sends reference vertices to the simplex vertices and reference simplex points to convex combinations; GeneralPlexToRefPlex inverts it on its image.", "quantifier": "all simplices, all points", "why_tests_cant": "Continuum of inputs.", "anchors": ["src/geometry/Affine.h"]}
{"id": "C30", "title": "Point location and probe assignment", "statement": "The element locator returns an element of minimal reported distance among the candidates; each probe found by at least one rank is written by exactly one rank, the lowest rank that attains the global minimum distance, and if nobody finds it every rank reports an error.", "quantifier": "all probe sets, distances, rank counts", "why_tests_cant": "All process counts and ties.", "anchors": ["src/geometry/PointLocator.h:locate", "src/io/ProbeWriterUtil.h:clean_duplicate_probes"]}
{"id": "C31", "title": "Tabular output files have one well-formed row per write", "statement": "CSV output of any sequence of writes is: title, header and one line per write with the fields separated by single separators and no trailing separator; a write at time<=0 starts the file afresh, a later write appends (or starts a file with a header if none exists) and never alters earlier rows.", "quantifier": "all histories of writes", "why_tests_cant": "Unbounded histories.", "anchors": ["src/io/CSVWriter.h:CSVWriter", "src/io/ScalarWriter.cpp:write", "src/io/ProbeWriter.cpp:write"]}
{"id": "C32", "title": "VTU appended-data offsets and point layout", "statement": "For every VTU file, reading the appended section at the offset recorded for a data array gives exactly that array's bytes preceded by its length; blocks are consecutive and do not overlap; points of dimension below three are expanded in place to three coordinates with zeros appended and no coordinate lost.", "quantifier": "all pieces, arrays and sizes", "why_tests_cant": "Unbounded numbers and sizes of arrays.", "anchors": ["src/io/VTUWriter.cpp:make_xml,write_appended,make_appended,VTUPiece"]}
{"id": "C33", "title": "Extendible datasets store record k at row k", "statement": "Writing records 0,1,2,... of a distributed quantity through the HDF5 writer stores rank r's part of record k in row k at the offset given by the sum of the lower ranks' sizes, without touching earlier rows.", "quantifier": "all sizes per rank, all numbers of records", "why_tests_cant": "Unbounded histories.", "anchors": ["src/io/HDF5Writer.cpp:writeToDataset,calculateOffsets", "app/tandem/Writer.h:MomentRateWriter"]}
{"id": "C34", "title": "Adaptive output interval", "statement": "Output is written at the first monitor call; two consecutive outputs are more than t_min apart in time (t_max >= t_min); while not writing, the time since the last output is at most t_max, and either at most t_min or the relative change of the peak slip rate is below tolerance.", "quantifier": "all sequences of (time, peak slip rate) reported by the time stepper", "why_tests_cant": "All histories.", "anchors": ["app/tandem/AdaptiveOutputStrategy.h", "app/tandem/Writer.h", "app/tandem/Monitor.cpp"]}
{"id": "C35", "title": "Monitored output is computed from the current state", "statement": "When a monitor call writes fault or volume output, the traction and displacement used belong to the time and state passed to the monitor, for every sequence of right-hand-side evaluations and monitor calls in which (for first-same-as-last schemes) the last evaluation was at that state.", "quantifier": "all histories of rhs evaluations and monitor calls", "why_tests_cant": "All histories.", "anchors": ["app/tandem/Monitor.cpp:MonitorQD::monitor", "app/form/SeasQDOperator.cpp:update_internal_state,rhs", "app/form/SeasQDDiscreteGreenOperator.cpp:update_internal_state"]}
{"id": "C36", "title": "Friction law solution exists, is unique and balances the traction", "statement": "For positive a, V0, eta and compressive normal stress, the slip-rate equation tau = F(V) + eta V has exactly one solution V >= 0, it lies in (0, tau/eta); if it is at least 1e-32 (or the smallest positive number) the search finds it up to 4 eps in the decimal exponent, otherwise NaN with an error code is returned; the slip rate vector is opposite to the traction, with magnitude V, and reproduces the stress balance; for eta=0 the closed form is the exact inverse of F.", "quantifier": "all parameters in the stated domain (exact arithmetic)", "why_tests_cant": "Continuum of inputs.", "anchors": ["app/localoperator/DieterichRuinaBase.h:slip_rate,F,Finv,tau_hat"]}
{"id": "C37", "title": "Initial state variable balances the initial stress", "statement": "For a nonzero initial slip rate whose damping eta |Vinit| is below the traction, psi_init returns the state for which the friction law carries the initial traction at the initial slip rate, so that the slip rate then computed is the initial one.", "quantifier": "all parameters in the stated domain (exact arithmetic)", "why_tests_cant": "Continuum of inputs.", "anchors": ["app/localoperator/DieterichRuinaBase.h:psi_init"]}
{"id": "C38", "title": "State evolution laws relax to the steady state", "statement": "For both the ageing and the slip law, the state rate vanishes exactly at psi = f0 - b log(V/V0), and has the sign that moves psi towards it.", "quantifier": "all V>0, psi and positive parameters", "why_tests_cant": "Continuum of inputs.", "anchors": ["app/localoperator/DieterichRuinaAgeing.h:state_rhs", "app/localoperator/DieterichRuinaSlip.h:state_rhs"]}
{"id": "C39", "title": "Discrete Green's function reproduces the solver", "statement": "If solve-then-evaluate-traction is linear in (slip, boundary data) and the boundary data is proportional to time, then the operator assembled column by column from unit slips, plus time times the unit-time boundary traction, gives the traction of the full solve for every slip and time.", "quantifier": "all linear solvers, all slips, all times, all dimensions", "why_tests_cant": "All states.", "anchors": ["app/form/SeasQDDiscreteGreenOperator.cpp:partial_assemble,update_traction,compute_boundary_traction"]}
{"id": "C40", "title": "Green's function assembly survives interruption", "statement": "Stopping the assembly at any point and restarting on the same number of processes from whatever checkpoint is on disk ends with the same operator as an uninterrupted run; a crash at any point of the checkpoint write leaves either the old or the new operator file or no operator file, never a partially written one under the final name.", "quantifier": "all crash points, all checkpoint frequencies, any number of restarts", "why_tests_cant": "All crash points.", "anchors": ["app/form/SeasQDDiscreteGreenOperator.cpp:write_discrete_greens_operator,back_up_file,load_discrete_greens_operator,partial_assemble"]}
{"id": "C41", "title": "Green's function checkpoints can be reloaded on another number of processes", "statement": "A complete operator written with one facet layout and loaded with another is the operator of the new layout: G'[i,j] refers to the same physical facets and components as before.", "quantifier": "all pairs of layouts, all block sizes", "why_tests_cant": "All layouts.", "anchors": ["app/form/SeasQDDiscreteGreenOperator.cpp:create_permutation_matrix,load_discrete_greens_operator"]}
{"id": "C42", "title": "Time-stepping checkpoints survive a crash", "statement": "In a run with limited storage of at least two slots (or unlimited storage), wherever the run is interrupted, if the last-checkpoint file names a directory then that directory holds a complete checkpoint, from which exactly the state passed to an earlier checkpoint call is restored; from the beginning of a checkpoint to the update of the file it is the previous checkpoint. All ranks agree on the directory.", "quantifier": "all numbers of checkpoints, all crash points", "why_tests_cant": "All crash points.", "anchors": ["app/common/ts_util.c:ts_checkpoint_write,ts_checkpoint_create_path"]}
{"id": "C43", "title": "Checkpoints are taken when due and restored faithfully", "statement": "A checkpoint is taken at every step that is a multiple of the configured step interval, and between any two calls that are at least the physical-time or CPU-time interval apart, and never without one of these reasons; loading a saved time-stepper state restores every saved field whatever the time stepper held before (same Runge-Kutta tableau).", "quantifier": "all step histories, all field values", "why_tests_cant": "All histories.", "anchors": ["app/common/ts_util.c:ts_checkpoint_test,_TSView,_TSLoad"]}
{"id": "C44", "title": "Multigrid level hierarchy", "statement": "For max_degree >= 1 every strategy yields strictly increasing polynomial degrees that start at the (clamped) coarse level and end at max_degree.", "quantifier": "all degrees, coarse levels and strategies", "why_tests_cant": "All parameters.", "anchors": ["app/common/MGConfig.cpp:levels"]}
{"id": "C45", "title": "Boundary conditions of generated meshes", "statement": "The boundary mesh of a generated mesh consists of exactly the element facets that lie in one of the configured planes (so of all facets on the outside of the box and those in inner planes), on every rank; each carries the condition configured for its plane and the regions it lies in, independent of the rank, namely that of the first configured entry that matches, and None if there is none.", "quantifier": "all configurations, all grids", "why_tests_cant": "All configurations.", "anchors": ["app/common/MeshConfig.cpp", "src/mesh/GenMesh.cpp:extractBoundaryMesh"]}
{"id": "C46", "title": "Mesh quadrature and numbering tables", "statement": "For every degree N >= 1, dimension 1..3 and numbering convention, the equidistant node set contains exactly the lattice points of the reference simplex, each once, vertices first, binom(N+D,D) in number; every permutation of the vertices induces a permutation of the nodes that moves the barycentric coordinates of every node from vertex j to vertex p_j; the degree is recovered from the number of nodes.", "quantifier": "all degrees", "why_tests_cant": "All degrees.", "anchors": ["src/basis/Equidistant.cpp", "src/basis/NumberingConvention.h"]}
{"id": "C47", "title": "Fast-path distribution of the graph to the partitioner", "statement": "The distributed element-to-vertex structure handed to the partitioner lists, on each rank, exactly the vertices of its elements, with row pointers starting at zero and increasing by D+1, and with the element distribution describing every rank.", "quantifier": "all meshes and rank counts", "why_tests_cant": "All meshes.", "anchors": ["src/mesh/GlobalSimplexMesh.h:distributedCSR"]}
{"id": "C48", "title": "Matrix assembly adds every contribution exactly once across ranks", "statement": "Summed over ranks, the assembled global matrix equals the sum over all elements and all facets of their local blocks: a facet between two ranks contributes its row blocks on the rank that owns the row, once.", "quantifier": "all partitions", "why_tests_cant": "All partitions.", "anchors": ["src/form/DGOperator.h:assemble,rhs", "src/form/DGOperatorTopo.cpp"]}
{"id": "C49", "title": "Reordering faces keeps their attributes attached", "statement": "After permute(p) on the faces of a local mesh, the vertices, owner, global number, shared ranks and attached mesh data at position i are those that were at p[i], and the vertex-to-local-number map agrees with the new order (volume tags, which the code does not move, excepted).", "quantifier": "all face lists, all permutations", "why_tests_cant": "n! permutations, variable-length blocks of shared ranks.", "anchors": ["src/mesh/LocalFaces.h:permute,permuteSharedRanks,makeG2LMap"]}
{"id": "C50", "title": "Only valid configurations are accepted", "statement": "If tandem starts with a configuration file and command line, then final time, tolerances, output and checkpoint frequencies and resolution are numbers in their documented range, all enumerated options have a known value, all required files exist, vectors have one entry per space dimension, and a generated mesh has at least two points and a list of boundary conditions per dimension. A key given neither in the file nor on the command line has its documented default, also inside the sections.", "quantifier": "all configuration files, all command lines, both dimensions, any file system", "why_tests_cant": "Arbitrary nested tables with arbitrary value types.", "anchors": ["app/tandem/SeasConfig.cpp:setConfigSchema", "app/common/MeshConfig.cpp:setSchema", "app/common/CmdLine.h:readFromConfigurationFileAndCmdLine"]}
{"id": "C51", "title": "Point location in affine meshes", "statement": "In a mesh of non-degenerate straight-sided elements a point in general position is located without exception; if it lies in some examined element, the result is an element containing it, at distance zero, with the exact reference coordinates. (Not in general position, i.e. with the last coordinate near that of an element's initial guess, the locator throws or reports the wrong place.)", "quantifier": "all dimensions, meshes, points, tolerances (exact arithmetic)", "why_tests_cant": "Continuum of geometries and points.", "anchors": ["src/geometry/PointLocator.h:locate", "src/geometry/PointLocator.cpp:xInv,inside_bbox"]}
{"id": "C52", "title": "Fault point location", "statement": "A point located on the fault is given a fault facet of the closest element, with facet coordinates of the point of that facet closest in reference coordinates and no other fault facet of this element is closer, provided facets of other elements do not follow in the container's iteration order; otherwise a facet of another element may be returned.", "quantifier": "all meshes, points and iteration orders", "why_tests_cant": "Depends on hash iteration order and geometry.", "anchors": ["src/geometry/PointLocator.cpp:BoundaryPointLocator::locate", "src/geometry/Curvilinear.cpp:facetParam"]}
{"id": "C53", "title": "The interior penalty parameter makes the assembled matrix positive semidefinite", "statement": "With the penalty that the library computes from facet area, element volume, degree and the range of the coefficient, the assembled matrix of the Poisson operator satisfies u^T A u >= 0 for every vector u, whatever the mesh, the partition and the (positive) coefficient field, whenever the inverse trace inequality holds with the constant used; for linear elements on straight-sided meshes it always does. A hundredth of the penalty is not enough.", "quantifier": "all conforming meshes, partitions, rank counts, boundary tags, coefficient fields and vectors; all dimensions", "why_tests_cant": "Positive definiteness is needed by the CG solver for every mesh and material; a test sees some meshes, and a too small constant only shows on bad elements or strong contrasts.", "anchors": ["app/localoperator/Poisson.cpp: prepare_penalty, assemble_volume, assemble_skeleton, assemble_boundary", "src/form/InverseInequality.h: trace_constant", "src/form/DGCurvilinearCommon.cpp: prepare_bndskl, prepare_volume_post_skeleton"]}
{"id": "C54", "title": "Fault basis is orthonormal: normal, steepest descent, horizontal strike", "statement": "Whenever the fault coordinate system is built without an exception, its vectors are orthonormal; the first has the direction of the (reference aligned) normal, the second is the direction of steepest descent with respect to the up vector within the fault plane, and in three dimensions the third is horizontal and completes a right-handed system. The exception is thrown exactly if up is parallel to the normal; nearly parallel vectors are accepted.", "quantifier": "all nonzero normals and up vectors, in two and three dimensions (exact arithmetic)", "why_tests_cant": "Directions form a continuum; slip and traction components reported to the user are relative to this basis.", "anchors": ["src/geometry/Curvilinear.cpp: facetBasis", "app/localoperator/AdapterBase.cpp: prepare", "src/util/Math.h: sgn"]}
{"id": "C55", "title": "The elasticity operator applied matrix-free is the assembled one, symmetric, blind to rigid motions, consistent with the reported traction", "statement": "For every mesh, partition, material and displacement: applying the elasticity operator matrix-free gives on each local element the same values as multiplying the assembled matrix (and A u - b when boundary data are included); the assembled blocks are symmetric; translations and rotations produce no force on elements whose boundary facets are traction-free; and each facet's residual is the reported traction with opposite signs on the two sides plus terms in the deviation from the prescribed jump. Conditions: interior penalty method for the matrix-free form, boundary tags that fit the facet.", "quantifier": "all meshes, partitions, schedules of the threads preparing the neighbour table, materials, geometries, polynomial spaces and displacement vectors", "why_tests_cant": "A test compares the two code paths for one mesh and degree; agreement is needed for every mesh, partition, side order and coefficient.", "anchors": ["app/localoperator/Elasticity.cpp:apply_", "app/localoperator/Elasticity.cpp:assemble_skeleton", "app/localoperator/Elasticity.cpp:rhs_skeleton", "app/localoperator/Elasticity.cpp:traction_skeleton", "app/kernels/elasticity.py"]}
{"id": "C56", "title": "The acceleration of the wave equation and projected initial values satisfy the discrete equations", "statement": "On affine elements with constant density the acceleration returned by the elasticity operator solves M a = -(A u - b) with M the mass matrix including the density, and the projection of a function is its L2 projection, so that functions of the discrete space are reproduced. On every element, also curved and with varying density, the inverse mass matrix used is symmetric positive definite. Condition: no body force is set.", "quantifier": "all meshes, partitions, displacements, densities, geometries and functions", "why_tests_cant": "The weight-adjusted inverse is only exact under conditions that a test on one mesh cannot reveal.", "anchors": ["app/localoperator/Elasticity.cpp:wave_rhs", "app/localoperator/Elasticity.cpp:project", "app/kernels/elasticity.py:apply_inverse_mass"]}
{"id": "C57", "title": "The distributed elasticity matrix and load are those of the symmetric interior penalty form of the whole mesh", "statement": "For every partition of a mesh onto any number of ranks, the matrix entries and the load entries that all ranks together add for linear elasticity are exactly those of the symmetric interior penalty form of the whole mesh: stress against gradient in every element once, on every interior facet once the consistency, symmetry and penalty terms, on boundary facets that are not traction-free the same with zero outside; and the load from body force, prescribed slip on faults and prescribed displacement on Dirichlet facets. The result does not depend on partition, rank count or which side of a facet is first. Hence the matrix is symmetric, and the overlapped matrix-free application gives the rows of this matrix times the vector.", "quantifier": "all conforming meshes, partitions, rank counts, boundary tags, geometries, materials, polynomial spaces, loads and message schedules (exact arithmetic)", "why_tests_cant": "A test compares a few meshes and at most a few rank counts with a reference solution up to discretization error; a facet counted twice or with the wrong side on one partition is easily hidden.", "anchors": ["app/localoperator/Elasticity.cpp: assemble_volume, assemble_skeleton, assemble_boundary, rhs_volume, rhs_skeleton, rhs_boundary, apply", "src/form/DGOperator.h: assemble, rhs, apply", "app/kernels/elasticity.py"]}
{"id": "C58", "title": "The penalty of the elasticity operator makes the assembled matrix positive semidefinite", "statement": "With the penalty the library computes from facet area, element volume, degree and the range of the Lame parameters, the assembled elasticity matrix satisfies u^T A u >= 0 for every displacement u, whatever mesh, partition and material with nonnegative lambda and positive mu, whenever the inverse trace inequality for strains holds with the constant used; for linear elements on straight-sided meshes it always does. A thousandth of the penalty is not enough.", "quantifier": "all conforming meshes, partitions, rank counts, boundary tags, materials and vectors; all dimensions (exact arithmetic)", "why_tests_cant": "Solvers and stability rely on it for every mesh and material contrast; a test sees some meshes.", "anchors": ["app/localoperator/Elasticity.cpp: prepare_penalty, stiffness_tensor_bounds", "src/form/InverseInequality.h: trace_constant", "app/kernels/elasticity.py"]}
{"id": "C59", "title": "The CFL time step bounds every frequency of the discrete elastic wave equation", "statement": "For interior penalty elasticity on any conforming simplex mesh split over any number of ranks, with the code's own penalties, the time step returned by the CFL estimate (the minimum over all elements of all ranks) is positive and satisfies dt^2 a(u,u) <= m(u,u) for every discrete displacement u, where a is the assembled stiffness matrix and m the mass (integral of rho u.u); hence every w with wave right-hand side -w^2 u for a nonzero u satisfies w*dt <= 1. This holds when the inverse trace and gradient inequalities hold with the code's constants, the nodal material bounds hold at quadrature points and the density is at least one in the chosen units; with a density below one the returned step can be too large by more than a factor of five.", "quantifier": "every mesh, partition into ranks, polynomial space, material with lambda >= 0 and density >= 1, every displacement vector and every eigenpair", "why_tests_cant": "a test can integrate a few problems for some time; it cannot show that no mode of any mesh, material and partition is unstable, nor reveal that the bound depends on the unit of density", "anchors": ["app/localoperator/Elasticity.cpp:prepare_cfl", "app/form/SeasFDOperator.cpp:cfl_time_step", "src/form/DGOperator.h:local_cfl_time_step", "src/form/InverseInequality.h:InverseInequality"]}
{"id": "C60", "title": "The ranks' parts of the mesh fit together", "statement": "From a conforming mesh read with its elements and tagged facets on any ranks, repartition() followed by getLocalMesh(1) succeeds and gives every rank a part of one and the same mesh: every element that was read is local on exactly the rank the partition assigns it to, elements have one number on all ranks, every element that shares a facet with a local element is present as ghost, every facet has the boundary condition that was given for it (none if none was given) on every rank, owners and shared ranks agree between the ranks, and the local elements that touch no other rank's element are exactly those before numInteriorElements.", "quantifier": "all conforming simplex meshes (any dimension, size below 2^64), numbers of ranks, placements of elements and tagged facets when read, partition vectors, outcomes of unstable sorts, hash functions, iteration orders of hash sets and arrival orders of messages", "why_tests_cant": "Tests run a few meshes on a few ranks with one partitioner; the property concerns how five communication phases compose for every partition, hash and message order.", "anchors": ["src/mesh/GlobalSimplexMesh.cpp:8-67 repartition, doPartition", "src/mesh/GlobalSimplexMesh.h:128-158,265-330 repartitionByHash, getLocalMesh, getFaces", "src/mesh/LocalSimplexMesh.h", "src/form/DGOperatorTopo.cpp"]}
{"id": "C61", "title": "The discrete problem does not depend on the number of ranks or the partition", "statement": "From reading the mesh to the blocks added to the global matrix and right-hand side: all ranks together compute exactly the blocks of the variational form on the mesh that was read, each element's once, each facet's once (also when its two elements are on different ranks), with the boundary conditions that were given; hence two runs on the same mesh with different numbers of ranks, partitions and message orders compute the same blocks, apart from the numbering of the elements.", "quantifier": "all pairs of runs: numbers of ranks, initial placements, partition vectors, hash functions, sort and set orders, arrival orders; all conforming meshes; all variational forms that do not depend on which element of a facet is called first", "why_tests_cant": "Comparing results of runs with different numbers of ranks samples a few partitions and cannot distinguish a lost or doubled block from rounding.", "anchors": ["src/mesh/GlobalSimplexMesh.h getLocalMesh", "src/form/DGOperatorTopo.cpp", "src/form/DGOperator.h:120-260 assemble, rhs"]}
{"id": "C62", "title": "Normals, areas and positions on facets are those of the mesh", "statement": "At every quadrature point of every facet the normal is perpendicular to the facet, points out of the element it belongs to and has the length of the surface element; the inverse Jacobian inverts the Jacobian; the normals of an element's facets sum to zero for a constant Jacobian. The two elements of a facet compute the same points, and normals that are exactly opposite and of the same length, whichever local facet number and whichever rank they have, for straight and for curved elements; hence the geometric arrays of every rank are those of one global mesh. For a mesh of non-degenerate straight simplices on different sides of their common facets all requirements hold.", "quantifier": "all dimensions 2 and 3; all vertex positions and coordinate transforms with a non-degenerate Jacobian; all local facets; all nodal bases whose restriction to a facet depends on the nodes of that facet only; all quadrature rules; all meshes, partitions and ranks", "why_tests_cant": "A sign error for one of the pairings of local facets or one curved element shows up as a loss of consistency on particular meshes only; tests use a few orientations.", "anchors": ["src/geometry/Curvilinear.cpp", "src/geometry/Affine.h", "src/form/DGCurvilinearCommon.cpp prepare_bndskl, prepare_volume", "src/geometry/Curvilinear.h"]}
{"id": "C63", "title": "From the vertices of the mesh to a symmetric positive semidefinite matrix", "statement": "Take any mesh of simplices with nondegenerate elements that lie on opposite sides of shared facets, split over any number of ranks. When every rank computes Jacobians, normals, facet areas and penalties from its own local and ghost elements only, the matrix entries of all ranks together are those of the symmetric interior penalty form of the whole mesh, whose coefficients depend on the mesh alone and not on the partition; the matrix is symmetric. It is positive semidefinite for positive coefficients if the discrete trace inequality holds; for linear elements on straight-sided meshes in two and three dimensions that holds for every mesh, so nothing is assumed about the discretisation.", "quantifier": "all vertex positions, meshes, partitions, numbers of ranks, coefficients and vectors", "why_tests_cant": "A test assembles a few meshes on a few ranks; it cannot show that geometry, penalty and assembly fit together for every mesh and every partition, nor that no mesh and no vector gives a negative energy.", "anchors": ["src/form/DGCurvilinearCommon.cpp:prepare_bndskl", "app/localoperator/Poisson.cpp:prepare_penalty", "app/localoperator/Poisson.cpp:assemble_skeleton", "src/geometry/Curvilinear.cpp"]}
{"id": "C64", "title": "From the vertices of the mesh to a stable elastic wave time step", "statement": "Take any mesh of simplices with nondegenerate elements that lie on opposite sides of shared facets, split over any number of ranks. When every rank computes geometry, penalties and element time steps from its own local and ghost elements only, the matrix entries of all ranks together are those of the symmetric interior penalty form of elasticity on the whole mesh, with coefficients that do not depend on the partition; the matrix is symmetric. For linear elements on straight-sided meshes in two and three dimensions, all Lame parameters lambda >= 0 and mu > 0 and all densities of at least one, it is positive semidefinite and the time step dt on which the ranks agree satisfies dt^2 u^T A u <= u^T M u for every displacement u, with nothing assumed about the discretisation except that its quadrature is exact for products of linear functions. The constants of the time step exist for degrees 0 to 10 and increase with the degree.", "quantifier": "all vertex positions, meshes, partitions, numbers of ranks, materials, interleavings of the side table and displacements", "why_tests_cant": "A test runs a few meshes for a few time steps; an element shape, material contrast or partition for which the time step is too large shows only as a slow blow-up on that input.", "anchors": ["app/localoperator/Elasticity.cpp:prepare_penalty", "app/localoperator/Elasticity.cpp:prepare_cfl", "src/form/InverseInequality.h:trace_constant", "src/form/InverseInequality.h:grad_constant", "src/form/DGOperator.h:local_cfl_time_step", "src/form/DGCurvilinearCommon.cpp:prepare_bndskl"]}
{"id": "C65", "title": "The Dubiner basis and its gradients are correct at every point", "statement": "The Jacobi polynomial JacobiP(n, a, b, x) computed by the three-term recursion is the Jacobi polynomial of its definition for every degree n and all natural parameters a, b, and JacobiPDerivative is its derivative. DubinerP is the Dubiner basis function of the collapsed coordinates wherever these are defined, on the interval, the triangle and the tetrahedron. The gradients on the triangle and tetrahedron are the partial derivatives of the basis functions at every point, including the edge and vertex at which the collapsed coordinates are singular. On the interval twice the returned gradient is the derivative (the code omits the factor two).", "quantifier": "all degrees, all natural Jacobi parameters, all multi-indices and all real points, in one, two and three dimensions", "why_tests_cant": "Tests compare a few polynomials at a few points; an error in the recursion at high degree or at the singular vertex goes unnoticed, and wrong gradients make the discretisation converge to a wrong solution.", "anchors": ["src/basis/Functions.cpp:JacobiP", "src/basis/Functions.cpp:JacobiPDerivative", "src/basis/Functions.cpp:SingularityFreeJacobiPAndDerivatives", "src/basis/Functions.cpp:gradTetraDubinerP", "src/basis/Functions.h:DubinerP", "src/basis/Functions.h:gradDubinerP"]}
{"id": "C66", "title": "Quadrature rules are exact up to the order asked for", "statement": "simplexQuadratureRule<D>(m) returns points and weights that integrate every polynomial of total degree at most m over the reference simplex exactly, in one, two and three dimensions, for every m, whether or not a tabulated rule of that order exists; and it returns a rule with no more points than any candidate. The points of the Gauss-Jacobi rules exist for every number of points and all natural weight exponents, lie inside the interval and have positive weights; the same holds for the collapsed tensor product rules on the simplex. Changing the interval keeps the exactness.", "quantifier": "all orders m, all numbers of points n, all natural exponents a, b, all polynomials of the degree in question, all target intervals, all tables whose rules are exact to the order they are filed under", "why_tests_cant": "A test integrates finitely many monomials with finitely many rules; the assembly relies on exactness for every polynomial degree a user configures.", "anchors": ["src/quadrules/GaussJacobi.cpp:GaussJacobi", "src/quadrules/IntervalQuadratureRule.cpp:changeInterval", "src/quadrules/TensorProductRule.cpp:get", "src/quadrules/TabulatedRules.h:TabulatedRules", "src/quadrules/AutoRule.h:simplexQuadratureRule"]}
{"id": "C67", "title": "Reference elements give the basis, its gradients and its mass matrices for every degree and index order", "statement": "For every degree N the modal basis of a reference element is a basis of the polynomials of total degree at most N, with binomial(N+D, D) members. evaluateBasisAt and evaluateGradientAt return the values and partial derivatives at every point, laid out in whichever order of the indices the caller asks for. The mass matrix holds the integrals of the products of basis functions, including the entries that are not computed, and inverseMassMatrix is its inverse. The nodal element built on nodes that determine those polynomials has the unique basis that is one at its node and zero at the others, reproduces every polynomial of degree at most N from its values at the nodes, sums to one, and has right values, gradients, mass matrix and inverse. Equidistant nodes are such nodes for every N and dimension, and so are N+1 distinct points of an interval.", "quantifier": "all dimensions 1, 2, 3 (gradients 2, 3), all degrees N, all lists of points, all permutations of the indices, all contents of memory before, all node sets that determine the polynomials of degree N, all exact matrix inversions and all sound quadrature tables", "why_tests_cant": "A test evaluates a few basis functions of low degree with one or two index orders; the operators use other orders, any degree, and rely on mass matrix and inverse being consistent.", "anchors": ["src/form/RefElement.cpp:ModalRefElement", "src/form/RefElement.cpp:NodalRefElement", "src/basis/Nodal.cpp:Vandermonde", "src/basis/Equidistant.cpp:EquidistantNodesFactory"]}
{"id": "C68", "title": "p-multigrid transfers functions exactly and its coarse operators are Galerkin", "statement": "For every mesh partition, every pair of degrees with from < to, and the nodal basis of any nodes that determine the polynomials (or the modal basis), the interpolation matrix assembled on all ranks in any order turns the coefficients of every piecewise polynomial of the lower degree into the coefficients of the same function in the higher degree basis; interpolation to a degree that is not higher is refused. Hence for every multigrid strategy, coarse degree and maximal degree the set-up produces an operator for every level below the finest, and for all functions of the level its bilinear form equals the bilinear form of the finest matrix on the same functions; the coarse operators are symmetric, nonnegative or positive definite when the finest one is.", "quantifier": "all meshes, partitions and orders of assembly; dimensions 1 to 3, all degrees, node sets, numbers of quantities; all strategies; all finest matrices and functions", "why_tests_cant": "A test interpolates a few polynomials on a few meshes; the statement is about every function, every hierarchy of levels and every finest matrix.", "anchors": ["app/localoperator/NodalInterpolation.cpp: NodalInterpolation::assemble", "app/localoperator/ModalInterpolation.h: ModalInterpolation::assemble", "src/form/InterpolationOperator.h: InterpolationOperator::assemble", "app/common/PetscInterplMatrix.cpp: PetscInterplMatrix", "app/common/PetscLinearSolver.cpp: PetscLinearSolver::setup_mg"]}
{"id": "C69", "title": "Error norms measure the difference between a discrete function and a solution", "statement": "For every mesh partition and every element geometry and basis, evaluating a discrete function or its gradient at points gives its values and its gradient in physical coordinates; the L2 error returned on the target rank is the root of the sum over all elements of the quadrature of the squared difference, independent of the partition and of previous memory; on straight meshes with polynomials of degree at most 10 it is the root of the exact integral, and it is zero exactly if the discrete function equals the solution. The H1 semi-norm does the same for gradients when there is one quantity or as many as dimensions; for other numbers of quantities it compares with wrong entries. The error on facets uses the surface element of the facet.", "quantifier": "all meshes, partitions, numbers of ranks, geometries with invertible Jacobian, bases, coefficients, reference solutions, initial memory", "why_tests_cant": "A convergence test compares a few numbers for a few meshes; a wrong index, transposed Jacobian or element counted twice may still show convergence.", "anchors": ["src/form/Error.cpp: Error::L2, Error::H1_semi", "src/form/FiniteElementFunction.cpp: FiniteElementFunction::map, gradient", "src/geometry/Curvilinear.cpp: Curvilinear::map, jacobian, jacobianInv, detJ, normal"]}
{"id": "C70", "title": "Nodes of elements lie where interpolation needs them, and elements fit together", "statement": "Legendre-Gauss-Lobatto points of degree N are N+1 different points of [-1,1] containing both ends, with the Legendre polynomial of degree N stationary at the others; they increase and are symmetric if the Newton iteration finds roots in decreasing order. The nodes made from them (and Gauss-Legendre nodes) on the interval determine polynomials of degree N. Warp & Blend nodes of the triangle carry, on every edge, exactly the interval nodes, and those of the tetrahedron carry, on every face, exactly the triangle nodes made with the same alpha; permuting the vertices of the triangle permutes its nodes; for degrees one and two the nodes are the equidistant ones. Consequently a mesh of elements with Warp & Blend nodes (whenever their nodal basis exists) or equidistant nodes has no gaps, for every degree, every vertex coordinates and every transformation: elements sharing a facet map each of its points to the same place.", "quantifier": "every degree N >= 1, every blending parameter alpha, every exact linear solver, every set of Jacobi roots, every machine epsilon up to 1/(8 N^3), every order of multi-indices, every facet, every permutation of vertices, every mesh and transformation", "why_tests_cant": "Tests compare a few degrees with tables to a tolerance; agreement of traces on shared facets must hold for every degree and every geometry, otherwise curved meshes have gaps.", "anchors": ["src/basis/Nodal.cpp", "src/basis/GaussLegendre.cpp", "src/basis/WarpAndBlend.h", "src/basis/WarpAndBlend.cpp", "src/geometry/Curvilinear.cpp"]}
{"id": "C71", "title": "The polynomial smoother applies the least squares polynomial, damps every error component below its bound, and is a valid preconditioner", "statement": "Whatever the operator, preconditioner, right-hand side and initial guess, k iterations of the smoother add to the initial guess a polynomial of degree k-1 in the preconditioned operator applied to the preconditioned residual, with coefficients that depend on the exponents and the eigenvalue bound only. For natural exponents the residual polynomial is the unique one of degree k with value one at zero that minimises the weighted integral of its square over [0, bound]. If alpha <= beta, every component of the error belonging to an eigenvalue in (0, bound] shrinks and one belonging to zero stays. With a fixed number of iterations from zero the operation is linear, symmetric and positive definite. The reported norm is that of the residual of the returned vector and a reason is always set. The computed bound is not below any eigenvalue estimate.", "quantifier": "all sizes, matrices, preconditioners, right-hand sides, initial guesses, iteration counts, convergence tests, norm types, natural exponents and positive bounds", "why_tests_cant": "optimality and damping are statements about all polynomials and all eigenvalues; a test sees one matrix and cannot tell the optimal polynomial from a nearby one", "anchors": ["app/pc/lspoly.c:KSPSolve_LSPoly", "app/pc/lspoly.c:ResidualP_Next", "app/pc/lspoly.c:ResidualP_Init", "app/pc/lspoly.c:KSPLSPolyComputeExtremeEigenvalues_Private"]}
{"id": "C72", "title": "The deflation preconditioner finds the best eigenpairs of its random space and removes their components exactly", "statement": "Gram-Schmidt turns independent columns into orthonormal ones with the same leading spans. For a positive definite solver and independent random columns, the computed vectors are orthonormal, lie in the space spanned by the solver applied power_its + 1 times to the columns, and are optimal in it: eigenvalues are positive and ascending, and each is the smallest Rayleigh quotient over the vectors of the space orthogonal to the previous ones; they are exact eigenpairs when the space is invariant, in particular with as many columns as unknowns. The same holds for the largest eigenvalues. Applying the preconditioner does not depend on how the rows are distributed; without smoothing it is symmetric and positive semidefinite; with exact pairs and post-smoothing the deflated components of the solution are exact and the error of every other component is multiplied by (1 - alpha lambda)^npost, which is a contraction exactly if 0 < factor lambda < e_min + e_max. Set-up succeeds exactly if nev + oversampling and six do not exceed the number of unknowns.", "quantifier": "all sizes, symmetric (positive definite) matrices, independent random columns, numbers of pairs, oversampling, power and smoothing iterations, partitions of the rows", "why_tests_cant": "the results depend on random columns and on the spectrum; a test sees one draw, and a wrong order or a lost column only degrades convergence", "anchors": ["app/pc/reig_aux.c:RandEigsMin_3_InPlace", "app/pc/reig_aux.c:RandEigsMax_3_InPlace", "app/pc/reig_aux.c:VecOrthonormalize_ModifiedGramSchmidt", "app/pc/reig_aux.c:MatDenseSymmetrizeSEQ", "app/pc/eigdeflate.c:PCApply_eigdeflate", "app/pc/eigdeflate.c:PCSetUp_eigdeflate", "app/pc/eigdeflate.c:PCReset_eigdeflate"]}
{"id": "C73", "title": "The fault's differential equation obeys friction at every node", "statement": "Evaluating the right-hand side of the fault's differential equation gives, at every node of every local fault facet, the slip rate that balances shear traction with friction at the node's normal traction and state, stored as the rate of the node's slip components, and the ageing law's rate plus the source as the rate of the node's state. The maximum slip rate it reports is the largest over all nodes, or zero. If some node's friction equation has no solution the program ends instead of continuing with a wrong value. Initialisation writes initial slip and the state that balances the initial tractions, and output reports exactly the node's state, slip, tractions, slip rate and normal traction under the documented names.", "quantifier": "Any number of fault facets and of nodes per facet, dimension two and three, any traction and state vectors, any friction parameters and source", "why_tests_cant": "Each node's place in three differently strided vectors has to agree between initialisation, right-hand side and output for every number of nodes, facets and dimension; a test runs one mesh.", "anchors": ["app/localoperator/RateAndState.h: pre_init, init, rhs, state, params, source", "app/form/FrictionOperator.h: pre_init, initial_condition, rhs, state, params"]}
{"id": "C74", "title": "Moment rates are the integrals of slip rate times shear modulus", "statement": "The moment rates reported for an elastic fault are, for every local fault facet and every slip component, the integral over the facet of the slip rate's interpolant times the mean of the shear moduli on both sides, evaluated with the facet's quadrature rule. With uniform modulus and slip rate this is modulus times slip rate times area. The antiplane operator gives the same for a modulus that is constant in each element, if a facet has no more quadrature points than an element has nodes. All fault facets must lie between two elements.", "quantifier": "Any number of fault facets, nodes and quadrature points, any material and any state rates", "why_tests_cant": "Requires agreement of strides and of basis evaluation for every degree and material; a test with constant material cannot tell nodal from quadrature values.", "anchors": ["app/form/AdapterOperator.h: compute_moment_rates", "app/form/FrictionOperator.h: rhs", "app/localoperator/Elasticity.cpp: mu_avg", "app/localoperator/Poisson.cpp: mu_avg", "app/localoperator/ElasticityAdapter.cpp: moment_rate", "app/localoperator/PoissonAdapter.cpp: moment_rate", "app/kernels/elasticity_adapter.py: evaluate_moment_rate"]}
{"id": "C75", "title": "The penalty's trace constant is right and best possible for every degree", "statement": "For every polynomial u of degree at most N on a simplex, the integral of u squared over a facet is at most trace_constant(N) = (N+1)(N+D)/D, times area over volume, times its integral over the element; for every N there is a polynomial, not zero, with equality. So the factor that the penalties use is neither too small nor larger than needed.", "quantifier": "every dimension D = 2, 3, every degree N, every polynomial of degree at most N and every facet of the reference simplex", "why_tests_cant": "A test evaluates the factor or the inequality for chosen polynomials; the inequality is about all polynomials of all degrees, and optimality is about the absence of a smaller factor.", "anchors": ["src/form/InverseInequality.h: InverseInequality::trace_constant", "app/localoperator/Poisson.cpp:214", "app/localoperator/Elasticity.cpp:283"]}
{"id": "C76", "title": "On straight meshes the matrices are positive semidefinite for every polynomial degree", "statement": "On a mesh of straight triangles or tetrahedra, on any number of ranks, the reference matrices that the operators' constructors compute are values and derivatives of the basis at points of rules exact for twice the degree, and with them the assembled Poisson and elasticity matrices are those of the interior penalty forms, symmetric and positive semidefinite, for every polynomial degree; with an inverse inequality for the gradient, the square of the time step times the form is at most the mass form. The coefficients, interpolated at the quadrature points, must stay in the range of their nodal values, as coefficients constant in each element do.", "quantifier": "every degree N >= 1, dimension 2 and 3, every mesh and partition, every vector of unknowns, every coefficient in range", "why_tests_cant": "Tests check a few matrices of low degree; definiteness is a statement about all vectors and all meshes, and the reference matrices must be right for every degree and quadrature order.", "anchors": ["app/localoperator/Poisson.cpp: Poisson::Poisson, prepare_penalty", "app/localoperator/Elasticity.cpp: Elasticity::Elasticity, prepare_penalty, cfl_time_step", "src/form/DGCurvilinearCommon.cpp", "app/config.h.in: MinQuadOrder"]}
{"id": "C77", "title": "Checkpoints find their directories", "statement": "When checkpoints are requested with a save directory given as any relative or absolute path (with repeated slashes, '.' parts or a slash at the end), the directory and all those above it are created if they are missing, nothing else in the file system changes, and no rank ends the program; every checkpoint then has its own directory inside it, named after the storage type and its number, holding that checkpoint's files, and the file naming the last checkpoint lies beside them. If the parent of the save directory exists and the system refuses to create it with one of the listed errors, every rank ends the program.", "quantifier": "Every path shorter than the limits, every contents of the file system, every working directory, every reason for refusing a directory and every sequence of checkpoints", "why_tests_cant": "The outcome depends on what the file system holds and on errors of the operating system at each component of an arbitrary path", "anchors": ["app/common/ts_util.c: recursive_mkdir, MPICreateDirectory, ts_checkpoint_create_path, ts_checkpoint_write, ts_checkpoint_configure", "app/tandem/SeasConfig.cpp"]}
{"id": "C78", "title": "Output for visualisation shows the discrete solution", "statement": "In the VTU output, every element of every rank is one cell. A reader who follows the offsets and the connectivity of a cell finds at its k-th point the image of the k-th reference point under that element's geometry (padded with zeros to three coordinates), in the array of each quantity the value of the discrete solution in that element at that point, and in the arrays of derivatives the derivatives of the discrete solution with respect to the coordinates of space. For facets (fault output) the points are those of the facet, as the first element of the facet places them. This holds for the ranges of elements tandem writes, which begin at the first local element.", "quantifier": "All dimensions 2 and 3, numbers of ranks, elements and quantities, reference elements, geometries with invertible Jacobians, coefficients and sets of reference points, as long as the number of points fits into a 32 bit integer.", "why_tests_cant": "The numbering of points depends on the number of elements of every rank, and the values on the element's geometry and coefficients; a test compares a file for one mesh with a reference file, and an error in the index of an element or of a component is invisible for symmetric data.", "anchors": ["src/io/VTUWriter.cpp: VTUPiece::VTUPiece, addPointData, addJacobianData", "src/io/VTUAdapter.h: CurvilinearVTUAdapter, CurvilinearBoundaryVTUAdapter", "src/tensor/Managed.h", "src/form/FiniteElementFunction.h: map, gradient"]}
{"id": "C79", "title": "Polynomial solutions are reproduced exactly", "statement": "If the solution of the Poisson problem with prescribed slip, boundary values and force is, in each element, a polynomial whose degree does not exceed the degree of the discretisation, then the system that the ranks assemble is solved by the coefficients of exactly this solution: matrix times coefficients equals right-hand side. The solution may jump across faults by the prescribed slip; the coefficient may be discontinuous between elements and linear within them; boundaries may carry prescribed values, slip or no flux. This holds for what the constructor of the operator computes for a degree, whatever the mesh and its partition.", "quantifier": "All polynomial degrees from one, meshes of straight triangles or tetrahedra, numbers of ranks, partitions, boundary conditions, coefficients linear in each element, slip, boundary values and forces for which the solution is such a polynomial.", "why_tests_cant": "A convergence test compares errors on a few meshes for one solution; a wrong sign or factor in one of the terms of facets, or in the treatment of slip on a boundary, may be hidden by the symmetry of the test case or need a boundary condition the test does not have.", "anchors": ["app/localoperator/Poisson.cpp: Poisson::Poisson, assemble_boundary, assemble_skeleton, assemble_volume, rhs_boundary, rhs_skeleton, rhs_volume", "app/form/DGCurvilinearCommon.cpp: prepare_bndskl, prepare_volume", "src/form/DGOperator.h: assemble, rhs", "src/quadrules/AutoRule.h"]}
{"id": "C80", "title": "Polynomial displacements are reproduced exactly", "statement": "If the displacement that balances the body force under prescribed slip, boundary displacement and free boundaries is, in each element, a polynomial whose degree does not exceed the degree of the discretisation, then its nodal values solve the linear system that the ranks assemble for elasticity. Slip may be prescribed on faults inside the domain and on the boundary (where half of the slip is imposed), the Lam\u00e9 parameters may jump between elements and be linear within them, and force, slip or boundary function may be left unset. This holds for what the constructor of the operator computes for a degree, whatever the mesh and its partition.", "quantifier": "All polynomial degrees from one, meshes of straight triangles or tetrahedra, numbers of ranks, partitions, boundary conditions, Lam\u00e9 parameters linear in each element, forces, slip and boundary displacements for which the displacement is such a polynomial.", "why_tests_cant": "Convergence tests see one manufactured solution; a missing symmetric part of the stress, a swapped index of a component or a wrong sign of the slip on one side leaves such a test within its tolerance if the solution does not excite it.", "anchors": ["app/localoperator/Elasticity.cpp: Elasticity::Elasticity, assemble_volume, assemble_skeleton, assemble_boundary, rhs_volume, rhs_skeleton, rhs_boundary", "app/kernels/elasticity.py", "src/form/DGOperator.h: assemble, rhs"]}
{"id": "C81", "title": "The assembled equations have exactly one solution", "statement": "On a mesh of straight triangles or tetrahedra on which every element is connected, through facets, with a boundary where values are prescribed, the matrix that the ranks assemble for the Poisson problem is positive definite for every polynomial degree, partition and positive elementwise coefficient: the equations have exactly one solution whatever the force, slip and boundary data. If the problem has a solution that is, in each element, a polynomial of at most the degree of the elements, the computed solution is that one at every point. If some element is not so connected the matrix is singular.", "quantifier": "all meshes, partitions, degrees, coefficients and data", "why_tests_cant": "the penalty constant of the code is exactly the borderline of the coercivity estimate, so that definiteness depends on no polynomial attaining the trace inequality on all facets of an element; a test can only look at the eigenvalues of some matrices", "anchors": ["app/localoperator/Poisson.cpp: assemble_volume, assemble_skeleton, assemble_boundary, rhs_*", "app/localoperator/Poisson.cpp: Poisson (constructor), prepare_penalty", "src/form/DGOperator.h: assemble, rhs"]}
{"id": "C82", "title": "The assembled elasticity equations have exactly one solution", "statement": "On a mesh of straight triangles or tetrahedra on which every element is connected, through facets, with a boundary where the displacement is prescribed, the matrix that the ranks assemble for elasticity is positive definite for every polynomial degree and partition and all elementwise Lame parameters with lambda >= 0 and mu > 0: the equations have exactly one solution whatever the body force, slip and boundary displacement. If there is an equilibrium that is, in each element, a polynomial of at most the degree of the elements, the computed nodal displacements are those of the equilibrium. If some element is not so connected the matrix is singular.", "quantifier": "all meshes, partitions, degrees, Lame parameters and data", "why_tests_cant": "that no rigid motion or other mode of zero energy survives is a statement about all displacements on all meshes, with the penalty on the borderline of the coercivity estimate; a test can only look at the spectra of some matrices", "anchors": ["app/localoperator/Elasticity.cpp: assemble_volume, assemble_skeleton, assemble_boundary, rhs_*", "app/localoperator/Elasticity.cpp: Elasticity (constructor), prepare_penalty", "src/form/DGOperator.h: assemble, rhs"]}
{"id": "C83", "title": "The operators of the time integration compute the rates of the problem, whatever the history and the partition", "statement": "After any sequence of calls (initial condition, rate evaluation, update for output), the quasi-dynamic operator's rate evaluation at time t and fault state s returns, on every rank, the friction rates for the tractions of a displacement in equilibrium with the slip in s and the boundary data at t; its initial condition and its update for output use the same equilibrium; no call throws for an unset slip or overlaps two exchanges. The fully dynamic operator's rate evaluation returns velocity as the rate of displacement, the wave equation's acceleration with the current slip and boundary data, and the friction rates for the traction of the given displacement, in the slots of the state vector. Two runs with different partitions and histories return the same rates for the same element or fault facet. The fully dynamic initial condition is the problem's if no rank has ghosts or the vectors already hold it.", "quantifier": "all meshes, numbers of ranks, partitions and numberings with ghosts, block contents, local operators, friction laws, histories of calls, times and states", "why_tests_cant": "A test runs one sequence of calls on one partition; stale ghosts, stale solutions or a slip condition left set show only for particular call orders and partitions.", "anchors": ["app/form/SeasQDOperator.cpp:rhs", "app/form/SeasQDOperator.cpp:update_internal_state", "app/form/SeasFDOperator.cpp:rhs", "app/form/SeasFDOperator.cpp:initial_condition", "app/form/AdapterOperator.h:traction", "app/common/PetscTimeSolver.h:RHSFunction"]}
{"id": "C84", "title": "The elasticity operators balance energy exactly", "statement": "Two equilibria computed from the assembled equations for different slips and boundary displacements differ in stored energy by exactly the mean of the works that the facet forces of the two states do on the change of the data; the traction which the operator reports to the friction law is, times the surface element, that facet force, on whichever rank and with whichever element first. For the wave equation, the rate of kinetic plus stored energy is the power of the facet forces on the slip rates and boundary velocities; without moving data it is conserved; and with zero data and the code's own penalty the kinetic energy never exceeds the initial energy.", "quantifier": "all meshes, partitions, degrees, materials, slips, boundary data and motions; any body force in the static case", "why_tests_cant": "A test sees energies of some motions up to a tolerance; that the discrete traction, the penalty and the load terms fit together so that no energy is created is a statement about all motions on all meshes and partitions.", "anchors": ["app/localoperator/Elasticity.cpp: traction_skeleton, traction_boundary", "app/localoperator/Elasticity.cpp: rhs_skeleton, rhs_boundary, assemble_*", "app/localoperator/Elasticity.cpp: wave_rhs, apply_", "app/kernels/elasticity.py"]}
{"id": "C85", "title": "Tabulated quadrature rules are accurate to their order", "statement": "Every rule of the three tables of quadrature rules (triangles up to order 20, tetrahedra up to order 10 and up to order 20), read number by number and mapped to the reference simplex as the code does, has all its points in the simplex and all its weights positive, and integrates every polynomial of total degree at most the rule's order with an error of at most 2e-15 times the sum of the magnitudes of the polynomial's coefficients. The tables are sorted by order and every rule has as many points as weights. Hence the rule that is chosen for a simplex of dimension 1 to 3 and any requested order, from the tables or as tensor product, is accurate in that sense and has no more points than any candidate. The literal numbers are rounded decimals, so exactness itself does not hold.", "quantifier": "every rule of every table; every polynomial up to the order; every requested order and dimension 1 to 3", "why_tests_cant": "a unit test integrates a few polynomials with a few rules; a single wrong digit among several thousand numbers shows only for some monomials of high degree", "anchors": ["src/quadrules/WitherdenVincent2015_Tri.cpp: WitherdenVincent2015_Tri", "src/quadrules/WitherdenVincent2015_Tet.cpp: WitherdenVincent2015_Tet", "src/quadrules/JaskowiecSukumar2020.cpp: JaskowiecSukumar2020", "src/quadrules/TabulatedRules.h: TabulatedRules", "src/quadrules/AutoRule.h: simplexQuadratureRule"]}
{"id": "C86", "title": "The scenario script is called and answered as its author expects", "statement": "A function of the scenario script is called with its table, then the coordinates in order, then the volume's tag (materials) or the time (time-dependent data); the first values it returns are the result, in order, and nothing else is ever returned. A scenario that is not a table, an error raised by the script and a result that is missing or not a number end in an exception that names them. Over any history of calls the interface's stack never overflows, and if the script's functions change nothing an answer does not depend on earlier calls. The scenarios of earthquake sequences, of the friction law and of static problems read exactly the members of the documented names, with the documented defaults (identity warp, mu 1, rho 1, zero pre-stress and initial slip).", "quantifier": "every script (any interpreter behaviour: any values, any number of results, any errors, any change of the script's memory), every history of calls, every point, tag and time, every dimension up to three", "why_tests_cant": "A test runs a few scripts with a few arguments once each; a stack that is unbalanced by one slot, an argument out of place or a default taken wrongly shows only for other scripts, other numbers of results or after many calls.", "anchors": ["src/script/LuaLib.h: getFunction, hasMember, getMemberFunction, getMemberFunctionTagged, getMemberConstant", "src/script/LuaLib.cpp: LuaLib, load, loadFile", "app/tandem/SeasScenario.h", "app/tandem/FrictionConfig.h: DieterichRuinaScenario, param_fun", "app/tandem/SeasSolution.h", "app/common/Scenario.h", "app/common/ElasticityScenario.h", "app/form/FacetFunctionalFactory.h"]}
{"id": "C87", "title": "A row of the moment rate file is a fault facet, with its vertices and its number", "statement": "The moment rate file has one row for every fault facet. In row i, the dataset faultVertices has the positions of the D vertices of a facet, as the curved geometry of its first element places them, faultNo has the global number of that facet, and momentRate has its records; the rows of the ranks follow each other in the order of the ranks and within a rank in the order of its facets. This holds for every mesh part, every number of ranks, every degree from one on and every order in which the ranks write, as long as the fault has a facet, the datasets do not exist yet and the numbers are below 2^31.", "quantifier": "every number of ranks and order of their writes, every list of fault facets per rank (also empty ones), every geometry (nodes and basis), dimension 2 and 3, every degree >= 1, every sequence of records", "why_tests_cant": "A test writes one mesh on a few ranks at one degree; the buffer the positions are gathered in is larger than needed and overlapping blocks are written into it, so that the result depends on the degree and on the number of facets.", "anchors": ["src/io/HDF5Adapter.h: CurvilinearBoundaryHDF5Adapter::getVertices, getGlobalFctNos, setRefNodes, map", "app/tandem/Writer.h: MomentRateWriter::write_static", "src/io/HDF5Writer.cpp: createExtendibleDataset, writeToDataset", "src/basis/Equidistant.cpp: EquidistantNodesFactory"]}
{"id": "C88", "title": "The method of Bassi and Rebay assembles its bilinear form and needs no penalty parameter", "statement": "When the Poisson operator is used with the method BR2 on straight-sided elements, the ranks together assemble exactly the second method of Bassi and Rebay: for all discrete functions u and v, V^T A U is the sum of the volume terms, of the fluxes - {K grad u}.[v] - {K grad v}.[u] over the interior and the not natural boundary facets and of D + 1 times the lifting of the jump of u tested with the jump of v, where the lifting into an element is the vector field of the discrete space whose integral against every trial function is that of the jump over the facet; that lifting exists; and V^T b is the linear form with the lifting of the prescribed jumps and boundary values. If the coefficient is a nonnegative constant in each element, then for every degree the matrix is symmetric and positive semidefinite, without any tuned penalty.", "quantifier": "every mesh of straight triangles or tetrahedra, number of ranks and partition, polynomial degree >= 1, quadrature order that is large enough, coefficient constant in each element, boundary tags, discrete functions", "why_tests_cant": "The eigenvalues of an assembled matrix can be tested on one mesh; that the factor D + 1 suffices needs an estimate over all meshes and degrees, and the lifting is only visible through the blocks.", "anchors": ["app/localoperator/Poisson.cpp: prepare_volume, assemble_skeleton, assemble_boundary, rhs_skeleton, rhs_boundary, constructor", "app/localoperator/Poisson.h: penalty", "app/kernels/poisson.py: MinvWA, Lift, assembleSurface, rhsFacet", "src/form/DGOperator.h: assemble, rhs", "src/form/RefElement.cpp: ModalRefElement::inverseMassMatrix"]}
{"id": "C89", "title": "The equations of the method of Bassi and Rebay have exactly one solution, which is exact where the solution is a polynomial", "statement": "Select the method of Bassi and Rebay on a mesh of straight triangles or tetrahedra in which every element is connected, through facets that are not natural boundaries, with a boundary where values are prescribed, and give a coefficient that is a positive constant in each element. Then the matrix that the Poisson operator assembles is symmetric positive definite, and for every force, slip and prescribed value the equations have exactly one solution. If the Poisson problem with these data has a classical solution that is a polynomial of at most the degree of the elements in each element, the computed solution equals it at every point of every element. No penalty parameter enters.", "quantifier": "every straight-sided valid mesh in two or three dimensions with any partition, every degree from one, every piecewise constant positive coefficient, all forces, slips and boundary values, and every polynomial solution", "why_tests_cant": "Tests solve a few problems of a few degrees on a few meshes; that no other mesh, coefficient or partition makes the matrix singular, or lets the liftings spoil the exactness, ranges over all of them.", "anchors": ["app/localoperator/Poisson.cpp: assemble_skeleton, assemble_boundary, rhs_skeleton, rhs_boundary, compute_inverse_mass_matrix", "app/localoperator/Poisson.h: penalty", "app/kernels/poisson.py: lift_skeleton, lift_boundary, rhs_lift_skeleton, rhs_lift_boundary"]}
{"id": "C90", "title": "For elasticity too the method of Bassi and Rebay assembles its bilinear form and needs no penalty parameter", "statement": "When the elasticity operator is used with the method BR2, the ranks together assemble exactly the second method of Bassi and Rebay: for all displacements u and v, V^T A U is the sum of the volume terms, of - {stress(u)}:[v] - {stress(v)}:[u] over the interior and the not natural boundary facets and of D + 1 times the stress of the lifting of the jump of u contracted with the jump of v, where the lifting into an element is the tensor field of the discrete space whose integral against every trial function is that of the jump over the facet; that lifting exists; and V^T b is the linear form with the lifting of the prescribed slip and boundary values. Curved elements are included, because the mass matrix of each element is inverted. If the elements are straight and the Lame parameters are nonnegative constants in each, then for every degree the mass matrices are invertible and the assembled matrix is symmetric and positive semidefinite, without any tuned penalty.", "quantifier": "every mesh of triangles or tetrahedra, number of ranks and partition, polynomial degree >= 1, quadrature order that is large enough, Lame parameters, boundary tags, displacements; for positivity straight elements and parameters constant in each", "why_tests_cant": "The eigenvalues of an assembled matrix can be tested on one mesh; that the factor D + 1 suffices needs an estimate over all meshes and degrees, and the lifting is only visible through the blocks.", "anchors": ["app/localoperator/Elasticity.cpp: compute_mass_matrix, compute_inverse_mass_matrix, assemble_skeleton, assemble_boundary, rhs_skeleton, rhs_boundary, constructor", "app/localoperator/Elasticity.h: penalty", "app/kernels/elasticity.py: massMatrix, Lift, lift_skeleton, lift_boundary, f_lifted, rhs_lift_skeleton, rhs_lift_boundary", "src/form/DGOperator.h: assemble, rhs"]}
{"id": "C91", "title": "The elasticity equations of the method of Bassi and Rebay have exactly one solution, which is exact where the equilibrium is a polynomial", "statement": "Select the method BR2 for elasticity on a mesh of straight triangles or tetrahedra in which every element is connected, through facets that are not natural boundaries, with a boundary where displacements are prescribed, and give Lame parameters that are constant in each element, lambda nonnegative and mu positive. Then the assembled matrix is symmetric positive definite: no rigid motion of any part of the mesh is left. For every body force, slip and prescribed displacement the equations have exactly one solution. If the data have an equilibrium that is a polynomial of at most the degree of the elements in each element, the computed displacement equals it at every node. No penalty parameter enters.", "quantifier": "every straight-sided valid mesh in two or three dimensions with any partition, every degree from one, all such Lame parameters, all forces, slips and prescribed displacements, and every polynomial equilibrium", "why_tests_cant": "Tests solve a few problems of a few degrees on a few meshes; that no other mesh, material or partition leaves a motion without energy, or lets the liftings spoil the exactness, ranges over all of them.", "anchors": ["app/localoperator/Elasticity.cpp: compute_inverse_mass_matrix, assemble_skeleton, assemble_boundary, rhs_skeleton, rhs_boundary, constructor", "app/localoperator/Elasticity.h: penalty", "app/kernels/elasticity.py: lift_skeleton, lift_boundary, rhs_lift_skeleton, rhs_lift_boundary"]}
{"id": "C92", "title": "The CPU masks printed at the start show where the workers may run", "statement": "The text of a mask of CPUs is written within its bounds for every number of CPUs; unless that number is one more than a positive multiple of ten, every CPU has its own character, its last digit if the worker may run there and a dash otherwise, in groups of ten separated by bars. The mask of the node has exactly the CPUs on which some thread of some rank on the node may run, as long as only CPUs are involved whose number modulo 64 is below 31. The lines printed for the rank and for the node, one after the other, hold the two texts, indented alike. On a node with 33 or more CPUs some set of CPUs is shown wrongly, whatever the undefined shift in the code yields.", "quantifier": "every number of CPUs, every set of CPUs of every thread, all ranks on a node, every width of the logo from 11, and every value of the undefined shifts", "why_tests_cant": "Tests run on one machine with one binding; the text has boundary cases at each group of ten, and the bits depend on the largest CPU number and on the compiler.", "anchors": ["src/parallel/Affinity.cpp: to_string, worker_mask, cpu_set_to_my_set, my_set_to_cpu_set, worker_mask_on_node", "app/common/Banner.cpp: print_affinity, print_centered"]}
{"id": "C93", "title": "The antiplane operator balances energy exactly", "statement": "For the Poisson operator (antiplane shear), two equilibria computed from the assembled equations for different slips and boundary values differ in energy by exactly the mean of the works that the facet forces of the two states do on the change of the data. The energy is that of the gradients in the elements, less the work of the force, plus the interior penalty energy of the difference between jumps and prescribed jumps. The flux that the operator reports to the friction law, along the normal of the first element and times the surface element, is that facet force, on whichever rank and with whichever element first (with the sign of the side).", "quantifier": "all meshes, partitions, degrees, coefficients, forces, slips and boundary values", "why_tests_cant": "A test compares fluxes with a reference up to a tolerance; that the reported flux, the penalty and the load terms belong to one energy is a statement about all solutions on all meshes and partitions.", "anchors": ["app/localoperator/Poisson.cpp: traction_skeleton, traction_boundary", "app/localoperator/Poisson.cpp: rhs_skeleton, rhs_boundary, assemble_*", "app/kernels/poisson.py: grad_u, grad_u_bnd"]}
{"id": "C94", "title": "The program for the warp and blend parameter finds the minimum of the right function", "statement": "The golden section search ends for every function and positive tolerance, after as many rounds as the golden ratio needs to shrink the interval to the tolerance, with one evaluation in each; it evaluates only inside the interval and returns a point within half the tolerance of the best point it evaluated, and of the minimum if the function falls and then rises. The Lebesgue function is, at every point, the largest value that a polynomial of the degree can have there if its values at the nodes are at most one in magnitude; it is at least one, and one at the nodes. The estimate of the Lebesgue constant is its largest value at the sample points, for every distribution of the points to threads. The sample points lie in the triangle or tetrahedron and are uniformly distributed if the random numbers are: every point inside is reached from exactly two (six) points of the square (cube), through maps that keep volume.", "quantifier": "all functions, intervals, positive tolerances, unisolvent nodes of any degree in dimension 1 to 3, points, numbers of threads and random numbers", "why_tests_cant": "A test can minimise a few functions and draw a few samples; termination, the distance to the best point and uniformity are statements about all of them.", "anchors": ["app/warp-blend-opt.cpp: GoldenSectionSearch", "app/warp-blend-opt.cpp: sample", "app/warp-blend-opt.cpp: estimateLebesgueConstant", "src/basis/Nodal.cpp: LebesgueFunction, Vandermonde"]}
{"id": "C95", "title": "The table of times", "statement": "For any sequence in which a program enters and leaves its profiled regions (they may overlap, and none is left that was not entered), each region's accumulated time is the sum of the clock differences between entering and leaving it, in seconds, and its operations are the sum of those reported modulo 2^64. For any number of processes and any sorting algorithm, the printed minimum, median, mean and maximum are those of the processes' times. In the row of the total, the mean is the sum of the means above it, the minimum is at least the sum of the minima and the maximum at most the sum of the maxima. The table has max(widths, names) columns, each at least as wide as asked for and wider than its name, and every line whose items fit has the same length and shows each item at the right end of its column.", "quantifier": "all sequences of events and clock readings, numbers of regions and processes, times, sorting algorithms, column widths, names and rows", "why_tests_cant": "A test times a few calls on one machine; it cannot cover every interleaving of regions, clock carry, number of processes and table.", "anchors": ["src/util/Stopwatch.h: Stopwatch", "src/parallel/Profile.cpp: Profile::add, Profile::print", "src/parallel/Profile.h: Profile::begin, Profile::end", "src/parallel/Summary.cpp: Summary::Summary", "src/util/TablePrinter.cpp: TablePrinter::TablePrinter, TablePrinter::separator", "src/util/TablePrinter.h: TablePrinter::operator<<"]}
{"id": "C96", "title": "Tensors own their memory", "statement": "A program that creates, moves, assigns, reads, writes and destroys tensors, in any order and number, and that uses each as a value (never one whose value was moved away), reads exactly what values would give, never reads or frees memory that is not allocated, and every block of memory belongs to exactly one tensor; when all tensors are gone no memory is left. The storage asked for is the smallest multiple of the alignment that holds the entries as long as that number of bytes fits std::size_t.", "quantifier": "all finite programs of tensor operations, sizes, contents, element sizes and power-of-two alignments", "why_tests_cant": "A test runs a few programs; aliasing, double frees and leaks depend on the order of moves and destructions, and the size computation wraps only for sizes no test can allocate.", "anchors": ["src/tensor/Managed.h: Managed, Managed::make_storage, Managed::Deleter"]}
{"id": "C97", "title": "Block vectors over processes", "statement": "For any number of processes and local elements the global numbers of the blocks are 0 to total-1, each once, in the order of the processes. A block that a process inserts or adds is the column of that number when it accesses its entries, and no other column of any process changes; when all processes add blocks, each entry receives the sum of what was added to it, whatever the order. A nested vector saved to a binary file after other data is loaded unchanged by processes that share its parts alike, and the rest of the file remains to be read; other processes get the same entries in the same order if the sizes of the parts agree, and otherwise an error.", "quantifier": "all numbers of processes, local elements, block sizes, values, sequences and orders of calls, nested vectors and surrounding file contents", "why_tests_cant": "A test uses one or a few processes and small vectors; the numbering, the order of additions and restart on other process counts cannot be enumerated.", "anchors": ["app/common/PetscVector.cpp: PetscVector::PetscVector", "app/common/PetscVector.h: PetscVectorView::add_block, insert_block, begin_access", "app/common/vecnest_util.c: _VecView_Nest, _VecLoad_Nest"]}
{"id": "C98", "title": "Drawing of facets and boundary conditions", "statement": "In output on a boundary or on the fault, cell i shows facet i of the list of facets that was asked for: it is drawn as the face of an element of this process that has exactly the vertices of the facet. The program that checks boundary conditions draws every facet of a process that has a boundary condition exactly once, in the order of the facet numbers, with the code of its own condition, and no facet without condition. Its exit status does not tell whether anything was drawn: it is 0 when the mesh could not be read.", "quantifier": "every dimension, every local mesh, all assignments of boundary conditions to facets, every list of local facets", "why_tests_cant": "a wrong face or code shows only in some meshes, where the first element of a facet or the position of the facet in it is another one", "anchors": ["app/check-bc.cpp: find_facets, write_bcs, check_bc, main", "src/io/VTUAdapter.h: CurvilinearBoundaryVTUAdapter"]}
{"id": "C99", "title": "Operations on small vectors", "statement": "Sum and difference of two vectors go coordinate by coordinate and undo each other. The norm is the Euclidean length in every dimension, one included: it is zero for the zero vector only, scales with the vector and satisfies the triangle inequality. Normalising a vector that is not zero gives the vector of length 1 in the same direction. The product of the vector product of two vectors of space with a third is the determinant of the three; the vector product is orthogonal to both factors, and its length is the area of the parallelogram. Numbers are real numbers.", "quantifier": "every dimension and all vectors of it", "why_tests_cant": "the identities hold for all real vectors; tests try a few", "anchors": ["src/geometry/Vector.h: operator+, operator-, operator*, dot, norm, normalize, cross"]}
{"id": "C100", "title": "Loops over ranges and enumerated loops", "statement": "A loop over a range of unsigned numbers whose end is not before its begin visits from, from + 1, ..., to - 1 in this order and each once; size() is their number and isElement() is true for them and no others. If the end is before the begin, the range has no element, but a loop over it runs: it passes the largest number and goes on with zero until it meets the end. An enumerated loop visits what the plain loop visits, with consecutive numbers from the given start. Iterators move by differences back and forth.", "quantifier": "all pairs of numbers of 64 bits; every iterator for the enumerated loops", "why_tests_cant": "there are 2^128 ranges, and the loop over a reversed range takes up to 2^64 steps", "anchors": ["src/util/Range.h: Range, RangeIterator", "src/util/Enumerate.h: EnumerateIterator, enumerate"]}
{"id": "C101", "title": "Names recognised by their hash", "statement": "Names of sections of mesh files and of solver types are compared by a hash of 64 bits. Two texts of any length that differ in exactly one character have different hashes, and appending the same text to two texts neither creates nor removes a coincidence. A name of letters in a mesh file that is a section name with one character replaced, left out or added or with two neighbours exchanged is treated as an unknown section. Distinct texts with the same hash exist.", "quantifier": "all texts of any length; all typing errors of the four kinds in the six section names", "why_tests_cant": "there are infinitely many texts; a coincidence of hashes cannot be excluded by trying", "anchors": ["src/util/Hash.h: fnv1a, fnv1a_step", "src/io/GMSHLexer.cpp: getToken", "app/common/PetscUtil.h: HASH_DEF"]}

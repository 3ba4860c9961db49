{"id": "C01", "title": "Base64 encoding of result files is lossless", "statement": "Encoding any byte string to base64 text and decoding the text yields the original bytes; the text has length 4*ceil(n/3) and uses only the base64 alphabet and \"=\". Decoding ignores white space and missing padding, and decoding any text is free of invalid memory accesses.", "quantifier": "every byte string of every length; every candidate text", "why_tests_cant": "the set of byte strings is infinite and padding behaviour depends on length mod 3 and on all byte values", "anchors": ["src/utility/base64.cc: to_base64, encode4, decode4, from_base64"]}
{"id": "C02", "title": "Compressed VTK arrays contain all of the data", "statement": "write_devices(type=\"vtk\"/\"vtk_data\") stores an array as a sequence of blocks; concatenating the blocks described by the header yields exactly the array, for every array length.", "quantifier": "every array length and contents", "why_tests_cant": "block splitting bugs show only at particular lengths (multiples of the block size)", "anchors": ["src/utility/base64.cc: convertVectorToZlibBase64", "src/meshing/VTKWriter.cc"]}
{"id": "C03", "title": "Matrix assembly is accumulation", "statement": "After any sequence of add-entry, finalize and clear operations on the system matrix, the stored value at (r,c) is the sum, in order of arrival, of all the contributions to (r,c) since the last clear, no matter when the matrix was switched from the uncompressed to the compressed state; a fixed-pattern (\"compressed\") matrix that receives a new position falls back without losing contributions.", "quantifier": "every operation history, every order of contributions, every point of finalization", "why_tests_cant": "quantifies over histories; loss of a contribution depends on the interleaving of structure changes and additions", "anchors": ["src/math/CompressedMatrix.cc: AddEntry, AddRealEntry, AddImagEntry, Finalize, DecompressMatrix, CompressMatrix, ClearMatrix"]}
{"id": "C04", "title": "Compressed matrix structure is well formed", "statement": "After finalization the column (row) pointer array is monotone, starts at 0, ends at the number of stored entries, indices within one column are strictly increasing and in range, and an entry is stored iff it was added.", "quantifier": "every operation history and every dimension", "why_tests_cant": "quantifies over all sparsity patterns and histories", "anchors": ["src/math/CompressedMatrix.cc: CreateMatrix / CompressMatrix"]}
{"id": "C05", "title": "Matrix-vector products use the stored matrix", "statement": "Multiply and TransposeMultiply of a finalized matrix return sum_j A(i,j) x(j) and sum_i A(i,j) x(i) with A the accumulated matrix of C03.", "quantifier": "every history and every vector", "why_tests_cant": "universally quantified over matrices and vectors", "anchors": ["src/math/CompressedMatrix.cc: Multiply, TransposeMultiply"]}
{"id": "C06", "title": "Clearing and re-assembling a matrix is memory safe", "statement": "Clearing an assembled matrix and then adding entries, including at positions that were not present before, never accesses memory outside the matrix storage.", "quantifier": "every history of add/finalize/clear", "why_tests_cant": "out of bounds access depends on the history (row number vs number of non-zeros) and may be silent", "anchors": ["src/math/CompressedMatrix.cc: ClearMatrix, AddEntryImpl"]}
{"id": "C07", "title": "Threaded evaluation equals serial evaluation", "statement": "With any setting of threads_available and threads_task_size, the vectorised evaluation of a math function or of an element-wise operation computes every element exactly once, touches nothing outside the vector, and yields the serial result, whatever the interleaving of the worker threads.", "quantifier": "every vector length, thread count, task size, and every interleaving of the workers", "why_tests_cant": "schedules are unbounded and off-by-one errors arise only for particular (length, threads) pairs", "anchors": ["src/models/ParallelOpEqual.cc: OpEqualRun", "src/MathEval/MathPacket.cc: MathPacketRun"]}
{"id": "C08", "title": "Time integration formulas are consistent", "statement": "In solve(type=\"transient_bdf1\"|\"transient_tr\"|\"transient_bdf2\") the discretised derivative is exact for solutions polynomial in time up to the order of the method (1, 2 and 2), including BDF2 with unequal successive time steps.", "quantifier": "every pair of positive time steps, all polynomials of that degree", "why_tests_cant": "all step sizes/ratios; real arithmetic identity", "anchors": ["src/math/Newton.hh: TimeParams BDF1/TR/BDF2", "src/math/Newton.cc: Solve transient part"]}
{"id": "C09", "title": "Transient history is the history of accepted solutions", "statement": "Before each transient solve the stored charge/current assemblies TM0,TM1(,TM2) are those of the last one (two) accepted solves; a failed solve and a plain dc solve leave them unchanged; a successful transient_dc solve discards the earlier history; an integration step without a stored history fails.", "quantifier": "every sequence of solve commands with any outcome", "why_tests_cant": "quantifies over histories of accepted and rejected solves", "anchors": ["src/math/Newton.cc: Solve, UpdateTransientCurrent"]}
{"id": "C10", "title": "A converged solve meets the requested tolerances", "statement": "When solve returns successfully, in the last iteration, at every node and for every equation of every region of every device and for every circuit node, the absolute update was below absolute_error and the relative update below relative_error (strictly), and for transient charge checks the projected charge error was within charge_error.", "quantifier": "every device structure, every sequence of updates", "why_tests_cant": "aggregation over all nodes/equations/regions/devices; must hold for every structure", "anchors": ["src/math/Newton.cc: Solve", "src/Geometry/Device.cc: Update", "src/Geometry/Region.cc: Update", "src/Equation/Equation.cc: DefaultUpdate"]}
{"id": "C11", "title": "A failed solve restores the solution", "statement": "If solve does not converge (or is ended by divergence, iteration limit or linear solver failure), every solution variable of every region and the circuit node solutions are the ones before the call.", "quantifier": "every number of iterations, failure point, and set of solution variables", "why_tests_cant": "quantifies over failure points", "anchors": ["src/math/Newton.cc: Solve, BackupSolutions, RestoreSolutions", "src/Geometry/Region.cc: BackupSolutions, RestoreSolutions", "src/Circuit/data/NodeKeeper.cc"]}
{"id": "C12", "title": "The nonlinear iteration is bounded", "statement": "solve performs at most maximum_iterations iterations, and stops as soon as an iteration meets the tolerances (after at least one iteration) or when the divergence count reaches maximum_divergence.", "quantifier": "every sequence of iteration errors", "why_tests_cant": "all error sequences", "anchors": ["src/math/Newton.cc: Solve"]}
{"id": "C13", "title": "Equation numbers are a bijection", "statement": "Over all devices, regions, equations, nodes, plus circuit nodes, the rows 0..N-1 of the global system are assigned one to one: no two unknowns share a row, no row is unassigned, ground gets none.", "quantifier": "every collection of devices, regions, equation tables, node counts and circuits", "why_tests_cant": "universally quantified over structures; index arithmetic with offsets", "anchors": ["src/math/Newton.cc: NumberEquationsAndSetDimension", "src/Geometry/Device.cc: CalcMaxEquationNumber", "src/Geometry/Region.cc: GetEquationNumber", "src/Circuit/data/NodeKeeper.cc: SetNodeNumbers"]}
{"id": "C14", "title": "The equation table of a region stays consistent", "statement": "After any sequence of equation and delete_equation commands on a region, the equations are indexed 0..n-1 without gaps or repetition and every stored equation is the last one given for its name.", "quantifier": "every history of equation/delete_equation commands", "why_tests_cant": "histories", "anchors": ["src/Geometry/Region.cc: AddEquation, DeleteEquation, GetEquationIndex"]}
{"id": "C15", "title": "The variable-to-equation association follows the last equation command", "statement": "After any sequence of equation commands, a variable is associated with equation e iff e exists and was last given with that variable; in particular re-issuing equation(name=e) with another variable frees the old variable.", "quantifier": "every history of equation/delete_equation commands", "why_tests_cant": "histories", "anchors": ["src/Geometry/Region.cc: AddEquation, DeleteEquation, GetEquationNameFromVariable"]}
{"id": "C16", "title": "Edge fluxes are conservative", "statement": "For an edge_model contribution, what leaves the control volume of one node enters the control volume of its neighbour: contributions of one edge cancel, and the sum of all bulk edge contributions over a region is zero.", "quantifier": "every mesh graph, every edge model values and couples", "why_tests_cant": "every mesh and every field", "anchors": ["src/Equation/Equation.cc: EdgeAssembleRHS, EdgeCoupleAssemble"]}
{"id": "C17", "title": "The assembled Jacobian is the derivative of the assembled residual", "statement": "If the supplied derivative models are the exact partial derivatives of the node, edge, edge-volume models, the assembled bulk matrix is the Jacobian of the assembled residual, for every assignment of the unknowns.", "quantifier": "every mesh, every differentiable model, every state", "why_tests_cant": "all meshes, models and states", "anchors": ["src/Equation/Equation.cc: NodeVolumeAssemble, EdgeAssembleRHS, UnSymmetricEdgeAssembleJacobian"]}
{"id": "C18", "title": "Row permutation semantics at boundaries", "statement": "When loading the global system, an entry whose row is redirected is added to the redirected row (exactly once; twice if a copy is to be kept), a row removed by a boundary condition receives no bulk contribution, boundary entries themselves are not redirected, and all other rows receive exactly their contributions.", "quantifier": "every permutation map and every list of entries", "why_tests_cant": "universally quantified over maps and entries", "anchors": ["src/math/Newton.cc: LoadIntoMatrixPermutated, LoadIntoRHSPermutated, AssembleBulk/AssembleContactsAndInterfaces"]}
{"id": "C19", "title": "Terminal currents obey Kirchhoff's law", "statement": "If the interior node balances are zero, the terminal currents reported for all contacts of a region sum to zero (currents integrated from the same edge flux model).", "quantifier": "every mesh graph, every set of disjoint contacts, every flux field", "why_tests_cant": "every mesh and flux", "anchors": ["src/Equation/ContactEquation.cc: integrateEdgeModelOverNodes, integrateNodeModelOverNodes, AssembleEdgeEquation"]}
{"id": "C20", "title": "A node shared by several contacts gets exactly one boundary equation", "statement": "For an equation name, a node that lies on several contacts of a region that define a contact equation of that name is treated by exactly one of them.", "quantifier": "every set of contacts, node sets, and orders of creation/addresses", "why_tests_cant": "depends on pointer order and set intersections", "anchors": ["src/Equation/ContactEquation.cc: GetActiveNodes"]}
{"id": "C21", "title": "Solution update rules", "statement": "With variable_update=\"positive\" the updated solution is positive at every node; with \"log_damp\" the applied step has the same sign, is no larger in magnitude than the Newton step and grows logarithmically; with \"default\" the Newton step is applied; errors reported are the max of |update| and |update|/(|new|+minimum). Reported error nodes are nodes at which the reported error occurs.", "quantifier": "every solution vector and update vector", "why_tests_cant": "all real vectors", "anchors": ["src/Equation/Equation.cc: DefaultSolutionUpdate, LogSolutionUpdate, PositiveSolutionUpdate, DefaultUpdate", "src/Circuit/data/NodeKeeper.cc: UpdateSolution"]}
{"id": "C22", "title": "Circuit elements", "statement": "For every circuit built with circuit_element / circuit_alter, the equations that a solve loads hold exactly when node voltages and branch currents satisfy Kirchhoff's current law at every node except ground and the law of each element (R, C, L, V, I), in static, transient and small-signal (phasor) analysis; the loaded matrix is the derivative of the residual, the two terminals get exactly opposite contributions, and no row or column of a ground node is addressed. circuit_alter changes the value of the named element and nothing else.", "quantifier": "every history of circuit commands, terminal connections (including ground and both terminals on one node), parameter values, frequencies and solution vectors", "why_tests_cant": "all netlists, connections and states", "anchors": ["src/Circuit/models/ideal/*.cc", "src/Circuit/models/sources/*.cc", "src/Circuit/data/InstanceKeeper.cc", "src/math/Newton.cc: LoadMatrixAndRHSOnCircuit, LoadCircuitRHSAC", "src/commands/CircuitCommands.cc: circuitElementCmd, circuitAlterCmd"]}
{"id": "C23", "title": "Circuit node numbering", "statement": "After numbering, ground has number -1 and the other nodes have distinct consecutive numbers 0..k-1; the row of a node is the offset plus its number.", "quantifier": "every set of circuit node names, any insertion order", "why_tests_cant": "all sets of names", "anchors": ["src/Circuit/data/NodeKeeper.cc: SetNodeNumbers, AddNode"]}
{"id": "C24", "title": "Circuit node aliases", "statement": "Looking up an alias yields the aliased node; aliases never hide a node created under its own name.", "quantifier": "every history of circuit node / alias commands", "why_tests_cant": "histories", "anchors": ["src/Circuit/data/NodeKeeper.cc: AddNodeAlias, GetNode"]}
{"id": "C25", "title": "Model values are never stale", "statement": "Reading a node/edge model after any sequence of parameter changes, solution updates and model (re)definitions returns the value obtained by evaluating its current definition on the current values of its inputs.", "quantifier": "every dependency graph of models and every history", "why_tests_cant": "histories over arbitrary dependency graphs; stale caches show only after specific sequences", "anchors": ["src/models/NodeModel.cc", "src/models/EdgeModel.cc", "src/Geometry/Region.cc: AddNodeModel, SignalCallbacksOn*, RegisterCallback"]}
{"id": "C26", "title": "Parameter scoping", "statement": "get_parameter and the evaluation of a model on a region see the value set on the region, else on the device, else globally, else fail; setting at one scope never changes what another scope already overrides.", "quantifier": "every history of set_parameter at every scope", "why_tests_cant": "histories", "anchors": ["src/Data/GlobalData.cc: GetDBEntryOnRegion, GetDBEntryOnDevice, GetGlobalDBEntry, AddDBEntryOn*"]}
{"id": "C27", "title": "Setting a parameter invalidates exactly where it is visible", "statement": "set_parameter invalidates models on every region on which the looked-up value of that parameter can change.", "quantifier": "every set of devices/regions and parameter scopes", "why_tests_cant": "all shadowing configurations", "anchors": ["src/Data/GlobalData.cc: AddDBEntryOnGlobal/Device/Region, SignalCallbacksOnRegion..."]}
{"id": "C28", "title": "Uniform and element-wise storage are indistinguishable", "statement": "Storing a model as a single uniform value or as a vector never changes any observable element value, through all operations.", "quantifier": "every history of set / op-assign operations", "why_tests_cant": "histories and all values", "anchors": ["src/models/ModelDataHolder.cc", "src/models/ScalarData.cc"]}
{"id": "C29", "title": "Symbolic derivatives are derivatives", "statement": "diff(f,x) evaluates to the partial derivative of f with respect to x at every point at which f is regular.", "quantifier": "every expression tree and every point", "why_tests_cant": "infinitely many expressions and points", "anchors": ["src/adiff/EquationObject.cc: Derivative methods"]}
{"id": "C30", "title": "Simplification preserves meaning", "statement": "simplify(f) has the same value as f at every point at which f is defined.", "quantifier": "every expression tree and every point", "why_tests_cant": "infinitely many expressions and points", "anchors": ["src/adiff/EquationObject.cc: Simplify methods"]}
{"id": "C31", "title": "Distinct constants stay distinct", "statement": "Two constants are merged by symbolic simplification only if they are numerically equal.", "quantifier": "every pair of constants", "why_tests_cant": "all pairs of doubles", "anchors": ["src/adiff/EquationObject.cc: Constant"]}
{"id": "C32", "title": "Mesh line point distribution", "statement": "For mesh lines at xl<xh with positive spacings sl, sh, the generated points start at xl, end at xh, strictly increase, and no gap exceeds the requested spacings; point generation terminates.", "quantifier": "every pair of positions and positive spacings", "why_tests_cant": "all reals; termination of a data dependent loop", "anchors": ["src/meshing/MeshUtil.cc: equidistance, variable, getPoints"]}
{"id": "C33", "title": "A validated 1D mesh is a connected partition", "statement": "If create_1d_mesh finalization accepts a mesh then regions cover the whole line without gap or overlap, every junction has one interface, and contacts sit at the two ends.", "quantifier": "every list of lines, regions, interfaces, contacts", "why_tests_cant": "all configurations", "anchors": ["src/meshing/Mesh1d.cc: SanityChecking"]}
{"id": "C34", "title": "Region ordering in a 1D mesh is well defined", "statement": "The ordering used to sort the regions of a 1D mesh is a strict weak ordering (as std::sort requires).", "quantifier": "all pairs/triples of regions", "why_tests_cant": "undefined behaviour may be silent on samples", "anchors": ["src/meshing/Mesh1d.cc: RegionSort"]}
{"id": "C35", "title": "The 2D mesh is a conforming triangulation", "statement": "After any sequence of add_2d_mesh_line and add_2d_region commands, finalize_mesh ends; the coordinates and triangles it makes are a conforming triangulation of the rectangle between the outermost lines (every point is covered, two triangles meet in a common face, areas are positive and add up), every pair of lines crosses at a coordinate, and the mesh of each region consists of its triangles, one node at each of their vertices, and their edges.", "quantifier": "every sequence of mesh commands, every arrangement and spacing of lines and boxes", "why_tests_cant": "all sizes and positions; a geometric statement about all points", "anchors": ["src/meshing/Mesh2d.cc: Finalize_, GetLocations", "src/meshing/Mesh2dStructs.hh", "src/commands/MeshingCommands.cc: add2dMeshLineCmd, add2dRegionCmd"]}
{"id": "C36", "title": "The last matching 2D region wins; contacts and interfaces get the nodes in their boxes", "statement": "Every triangle belongs to the region declared last among those whose boxes contain its centre, and is left out if there is none; a contact (interface) has a node (pair) exactly at the coordinates in its boxes at which its region (both its regions) meet another region, unless an earlier contact or interface takes them; every box declared for a name counts.", "quantifier": "every sequence of declarations with any boxes", "why_tests_cant": "all lists of overlapping boxes", "anchors": ["src/meshing/Mesh2d.cc: FindRegion, AddRegion, AddContact, AddInterface, Finalize_", "src/commands/MeshingCommands.cc: add2dRegionCmd, add2dContactCmd, add2dInterfaceCmd"]}
{"id": "C37", "title": "Node volumes of a 1D region add up to its length", "statement": "The sum of NodeVolume over all nodes of a 1D region equals the sum of its edge lengths; for a simple chain this is the distance of its ends.", "quantifier": "every 1D mesh", "why_tests_cant": "all meshes", "anchors": ["src/GeomModels/NodeVolume.cc", "src/GeomModels/EdgeNodeVolume.cc", "src/GeomModels/EdgeLength.cc"]}
{"id": "C38", "title": "Circumcenters are equidistant", "statement": "The element center used for couples has the same distance from all vertices of a nondegenerate triangle (tetrahedron).", "quantifier": "every non degenerate element", "why_tests_cant": "all real coordinates", "anchors": ["src/Geometry/Triangle.cc: GetTriangleCenter", "src/Geometry/Tetrahedron.cc"]}
{"id": "C39", "title": "Node volumes add up to the size of the region", "statement": "The volume of a node is the part of each element around it that belongs to the node, between the node, the middles of its edges and the centers of the elements; all node volumes of a region together are its length (1D), area (2D) or volume (3D). For obtuse elements the couples are taken positive, so that the sum is too large.", "quantifier": "every mesh of edges, triangles or tetrahedra with all their faces", "why_tests_cant": "all real coordinates and all meshes of any size", "anchors": ["src/GeomModels/TriangleEdgeCouple.cc", "src/GeomModels/TriangleNodeVolume.cc", "src/GeomModels/TetrahedronEdgeCouple.cc", "src/GeomModels/TetrahedronNodeVolume.cc", "src/GeomModels/EdgeNodeVolume.cc", "src/GeomModels/NodeVolume.cc", "src/Geometry/EdgeData.hh"]}
{"id": "C40", "title": "Bernoulli function", "statement": "B(x) is x/(exp(x)-1) continued by 1 at 0, positive, B(-x)=B(x)+x, and dBdx is its derivative; large-argument branches deviate by no more than the stated threshold.", "quantifier": "every real argument", "why_tests_cant": "all reals, branch boundaries", "anchors": ["src/MathEval/Bernoulli.cc"]}
{"id": "C41", "title": "Regions of an imported mesh consist of exactly the elements given for them", "statement": "After create_gmsh_mesh, add_gmsh_region..., finalize_mesh and create_device (or load_devices in the devsim format), a region has as nodes, edges, triangles and tetrahedra exactly those that make up the elements of its physical groups, each once, whatever the order of the vertices and elements; element lists are accepted iff they describe complete elements, and are never read past their end.", "quantifier": "every list of coordinates, names and elements, every sequence of describing commands", "why_tests_cant": "all meshes and vertex orders; undefined behaviour", "anchors": ["src/meshing/GmshReader.cc: LoadMeshesFromArgs", "src/meshing/GmshLoader.cc: Finalize_, Instantiate_", "src/meshing/MeshLoaderStructs.hh", "src/meshing/MeshLoaderUtility.cc", "src/meshing/MeshLoaderStructs.cc: DecomposeAndUniquify", "src/meshing/DevsimLoader.cc"]}
{"id": "C42", "title": "Option processing", "statement": "A command accepts a set of keyword options iff every given option is known, of correct type, every required option present and checks pass; options not given have their default.", "quantifier": "every option table and every set of keywords", "why_tests_cant": "all tables and argument sets", "anchors": ["src/pythonapi/GetArgs.cc: processOptions", "src/commands/CheckFunctions.cc"]}
{"id": "C43", "title": "Contacts and interfaces of an imported mesh have exactly the nodes given for them", "statement": "Every contact (interface) described for an imported mesh exists on its region(s), with exactly the nodes of its groups, which must all be on the region(s), and with the edges and triangles of the region made of them; an interface pairs each node with the node of the other region at the same coordinate; no input leads to invalid memory accesses.", "quantifier": "every mesh, every sequence of describing commands, every pair of node lists", "why_tests_cant": "all lists, UB", "anchors": ["src/meshing/GmshLoader.cc: Instantiate_", "src/meshing/DevsimLoader.cc: FixNodePairs, Instantiate_"]}
{"id": "C44", "title": "Circuit commands do what they report", "statement": "Queries (get_circuit_node_list) and failing circuit commands leave the circuit unchanged, options of add_circuit_node take effect, and a circuit that was solved accepts no further elements.", "quantifier": "every history of circuit commands", "why_tests_cant": "side effects of queries and failures show only in later commands", "anchors": ["src/commands/CircuitCommands.cc", "src/Circuit/data/NodeKeeper.cc: AddNode"]}
{"id": "C45", "title": "Every model given to an equation contributes its documented term", "statement": "The residual assembled for an equation at a node is the sum of the terms of all the models named in the equation command (node, edge, edge volume, element, element volume, time), weighted by the geometric models of the region, and the equation contributes to no other row.", "quantifier": "every mesh, every combination of given and omitted model options, all model values", "why_tests_cant": "all combinations of options on all meshes", "anchors": ["src/AutoEquation/ExprEquation.cc: DerivedAssemble", "src/Equation/Equation.cc: EdgeCoupleAssemble, NodeVolumeAssemble, ElementNodeVolumeAssemble"]}
{"id": "C46", "title": "Contact equations load the documented boundary residual and its derivative", "statement": "At each node treated by a contact, the row of the equation receives the residual formed from the models named in the contact_equation command (and the bulk row is replaced if a node model is given); the row of the circuit node receives exactly the terminal current (charge in the time-derivative part) that get_contact_current (get_contact_charge) reports; no other row is touched; and the loaded matrix entries, including those of the circuit node, are the partial derivatives of these residuals.", "quantifier": "every mesh, contact, set of models with exact derivatives, circuit connection and state", "why_tests_cant": "all meshes and states; factors depend on the number of variables of the region", "anchors": ["src/Equation/ContactEquation.cc: AssembleNodeEquation, AssembleEdgeEquation, AssembleTriangleEdgeEquation, AssembleTetrahedronEdgeEquation, *OnCircuit", "src/AutoEquation/ExprContactEquation.cc: DerivedAssemble, calcCurrent, calcCharge"]}
{"id": "C47", "title": "Interface equations couple each shared node pair once and conservatively", "statement": "For an interface_equation, a pair of coincident nodes is coupled iff neither node is claimed for that equation by a contact of its region or by another interface, so no node is changed by two boundaries. At a coupled pair: continuous adds the balance of both sides in the row of region 0 and puts the interface model in the row of region 1; fluxterm adds the model times surface area on side 0 and subtracts it on side 1; hybrid does both. With equal surface areas the total balance of the pair is conserved. The loaded matrix entries are the derivatives of these contributions; nothing is loaded in the time-derivative part.", "quantifier": "every set of contacts, interfaces and equations, every list of node pairs, all model values and states", "why_tests_cant": "all arrangements of overlapping boundaries; all states", "anchors": ["src/Equation/InterfaceEquation.cc: RemoveContactNodesFromList, RemoveInterfaceNodesFromList, NodeVolumeType1Assemble, NodeVolumeType2Assemble, NodeVolumeType3Assemble", "src/AutoEquation/InterfaceExprEquation.cc: DerivedAssemble"]}
{"id": "C48", "title": "The value of a model expression is its mathematical value", "statement": "For every model expression, reading the model gives the element-by-element value of the expression: common subexpressions evaluated once and cached, models stored as a single uniform value, models evaluated on the fly as dependencies, and mixtures of edge and triangle-edge (or tetrahedron-edge) values do not change the result, whatever was evaluated before.", "quantifier": "every expression tree, every acyclic set of model definitions, every stored representation of the input models and every sequence of evaluations sharing a cache", "why_tests_cant": "the cache and the shared objects make the result depend on which expressions were evaluated before and on how they share subexpressions", "anchors": ["src/AutoEquation/ModelExprEval.cc: eval_function, EvaluateModelType, EvaluateProductType, EvaluateIfType, EvaluateExternalMath", "src/AutoEquation/ModelExprData.cc: op_equal, convertToTriangleEdgeData, convertToTetrahedronEdgeData", "src/models/ScalarData.cc"]}
{"id": "C49", "title": "A failing meshing command leaves things as they were", "statement": "If create_device, create_gmsh_mesh fails, other devices and meshes are unchanged, no half-made device or mesh remains under the name, and the command can be repeated with correct input.", "quantifier": "every mesh and every reason of failure", "why_tests_cant": "every failure point", "anchors": ["src/commands/MeshingCommands.cc", "src/meshing/GmshLoader.cc: Instantiate_", "src/meshing/DevsimLoader.cc: Instantiate_", "src/meshing/GmshReader.cc"]}
{"id": "C50", "title": "The connections of a region are those of its geometry", "statement": "In every region of a created device, the edges listed for a triangle (triangles and edges for a tetrahedron) are its edges, in the slot of the opposite node, and the triangles (tetrahedra) listed at an edge or triangle are exactly those that contain it; a region is refused iff an edge (triangle) belongs to more than two or no triangles (tetrahedra); no missing connections, no invalid memory access.", "quantifier": "every set of nodes, edges, triangles, tetrahedra", "why_tests_cant": "all meshes of all sizes; the lists are built by set intersections", "anchors": ["src/Geometry/Region.cc: FinalizeMesh, CreateEdgeToTriangleList, CreateTriangleToEdgeList, CreateTetrahedronToTriangleList, CreateTetrahedronToEdgeDataList"]}
{"id": "C51", "title": "Edge averages and their derivatives", "statement": "edge_from_node_model gives on every edge the node model at the first and second node of the edge; edge_average_model gives on every edge the arithmetic or geometric mean or the (negative) difference quotient of the node values; with a derivative, the models e:u@n0 and e:u@n1 are the partial derivatives of the average with respect to the variable at the two nodes. A rejected command changes nothing.", "quantifier": "every mesh, every node model that is a function of the variable, every value, every average type", "why_tests_cant": "all values of the node models on all meshes; the Newton iteration silently loses convergence if a derivative is wrong", "anchors": ["src/GeomModels/AverageEdgeModel.cc: AverageEdgeModel", "src/models/EdgeFromNodeModel.cc: EdgeFromNodeModel", "src/commands/ModelCommands.cc: createEdgeAverageModelCmd"]}
{"id": "C52", "title": "element models from edge and node models", "statement": "element_from_edge_model never fails on a mesh of triangles or tetrahedra and gives a vector for every edge of every element: the mean over the two ends of the edge of the vector whose components along the edges of the element at this end are the values of the edge model; so it returns F exactly where the edge model is the projection of a constant F. The derivative models @en0, @en1, @en2 (@en3) are the derivatives with respect to the variable at the head of the edge, its tail and the other corners, and element_from_node_model gives the values at these nodes.", "quantifier": "every two and three dimensional mesh, every edge model, every edge of every element, every direction of the edges", "why_tests_cant": "all meshes, all edge models and all differentiable functions of the values at the ends", "anchors": ["src/Geometry/TriangleElementField.cc: TriangleElementField", "src/Geometry/TetrahedronElementField.cc: TetrahedronElementField", "src/models/TriangleEdgeFromEdgeModel.cc", "src/models/TriangleEdgeFromEdgeModelDerivative.cc", "src/models/TriangleEdgeFromNodeModel.cc", "src/models/TetrahedronEdgeFromEdgeModel.cc", "src/models/TetrahedronEdgeFromEdgeModelDerivative.cc", "src/models/TetrahedronEdgeFromNodeModel.cc"]}
{"id": "C53", "title": "vector_gradient is the gradient", "statement": "vector_gradient gives at every node the mean of the gradients on the elements at the node, each being the gradient of the linear function through the values at the corners of the element; so it is exact for linear functions. With calc_type avoidzero, elements with a zero value do not count.", "quantifier": "every mesh in one, two and three dimensions, every node model", "why_tests_cant": "all meshes and all node values", "anchors": ["src/GeomModels/VectorGradient.cc: VectorGradient", "src/Geometry/GradientField.cc: GradientField"]}
{"id": "C54", "title": "Areas and normals of contacts and interfaces", "statement": "SurfaceArea, ContactSurfaceArea and their normals: in 2D every node of a contact or interface gets half the length of each of its boundary edges, counted once however many contacts or interfaces list the edge; the areas of all nodes add up to the length of the boundary (in 3D: to at least the area of the boundary triangles, and exactly that iff none is obtuse); nodes off the boundary get zero; on the boundary the normals have length one, and are perpendicular to the boundary wherever it is flat around the node. CylindricalSurfaceArea is the area swept by the boundary edges. AtContactNode counts the contacts at a node.", "quantifier": "every mesh in two and three dimensions, every set of contacts and interfaces, shared or not, every order of the names", "why_tests_cant": "areas depend on geometry and on sharing of edges between contacts; a test compares numbers for one mesh", "anchors": ["src/GeomModels/SurfaceArea.cc:calcSurfaceArea2d", "src/GeomModels/SurfaceAreaUtil.cc", "src/GeomModels/AtContactNode.cc", "src/GeomModels/CylindricalSurfaceArea.cc"]}
{"id": "C55", "title": "Distance and direction of an interface", "statement": "interface_normal_model gives every edge the distance of its centre from an interface, and the unit normal of the interface pointing to it: the distance is the smallest over the nodes of the interface, the normal is that of a nearest node, with the sign that makes it point from the edge to the node.", "quantifier": "every mesh, interface, edge and every tie between nodes", "why_tests_cant": "the nearest node depends on the geometry of the whole interface", "anchors": ["src/GeomModels/InterfaceNormal.cc"]}
{"id": "C56", "title": "Cylindrical volumes and couples", "statement": "cylindrical_node_volume and cylindrical_edge_couple describe the body swept by a 2D mesh about an axis: the volume of a node is that swept by its part of the triangles around it (Pappus), the volumes of all nodes add up to the volume of the body, the volumes of the two ends of every edge are available as edge models, and the couple of an edge is the area swept by the segments from its centre to those of its triangles. raxis_zero and raxis_variable (x or y) are required.", "quantifier": "every 2D mesh, both radial variables, every position of the axis", "why_tests_cant": "formulas distinguish the order of the vertices along the axis; a test compares one mesh", "anchors": ["src/GeomModels/TriangleCylindricalNodeVolume.cc", "src/GeomModels/TriangleCylindricalEdgeCouple.cc", "src/GeomModels/CylindricalNodeVolume.cc", "src/GeomModels/CylindricalEdgeNodeVolume.cc", "src/GeomModels/CylindricalEdgeCouple.cc", "devsim.cylindrical_node_volume", "devsim.cylindrical_edge_couple"]}
{"id": "C57", "title": "Devices survive a restart", "statement": "Devices written by write_devices (format devsim) and read by load_devices are the same devices: the regions have the same nodes, edges, triangles, tetrahedra and connections, contacts and interfaces have the same nodes and materials; coordinates and node, edge and element values are the same when they have at most 16 significant decimal digits and agree to 16 digits otherwise; any name and any value can be written so; and the commands creating the models and equations are run with the arguments that were written, in the order of regions, interfaces and contacts. Other devices stay.", "quantifier": "every list of devices of any size and dimension, every set of models, every state of the program the file is read in", "why_tests_cant": "a test saves one mesh; order of items, states of the scanner and numbering interact", "anchors": ["src/meshing/dsmReader/DevsimParser.y", "src/meshing/dsmReader/DevsimScanner.l", "src/meshing/DevsimLoader.cc", "src/meshing/DevsimRestartWriter.cc", "devsim.load_devices", "devsim.write_devices"]}
{"id": "C58", "title": "A failed load does not affect later loads", "statement": "A load_devices that fails leaves the program such that a correct file can be read afterwards.", "quantifier": "every failing file and every later file", "why_tests_cant": "the state of scanner and parser outlives the call; a test reads one file per process", "anchors": ["src/meshing/dsmReader/DevsimParser.y", "src/meshing/dsmReader/DevsimScanner.l", "src/meshing/DevsimLoader.cc"]}
{"id": "C59", "title": "Errors while restoring are reported", "statement": "If a command restoring a model or equation fails, or values in the file do not fit the mesh, load_devices reports an error.", "quantifier": "every file, every command that fails", "why_tests_cant": "failures of single commands are rare and depend on the whole file", "anchors": ["src/meshing/DevsimLoader.cc"]}
{"id": "C60", "title": "A restored device can be saved and restored again", "statement": "Writing a device that was itself restored from a restart file gives the same file: nodes, elements, contacts and interfaces survive any number of saves and restores.", "quantifier": "every restart file with any regions, contacts and interfaces", "why_tests_cant": "the loss happens only on the second restart and only for some shapes of contacts and interfaces", "anchors": ["src/meshing/DevsimRestartWriter.cc", "src/meshing/DevsimLoader.cc"]}
{"id": "C61", "title": "solve(type=\"ac\") solves the linearised system at the frequency asked for", "statement": "After an AC solve the results <variable>_Real and <variable>_Imag at every node and ssac_real, ssac_imag at every circuit node are the solution of (J + 2 pi i f T) x = b, where J and T are the static and the charge Jacobian at the operating point with boundary equations replaced as in the DC solve and b holds the AC sources of the circuit only; the operating point itself is left alone.", "quantifier": "every device, region and circuit, every frequency, every linear solver", "why_tests_cant": "the results depend on numbering, permutations and name lookup of the whole system", "anchors": ["src/math/Newton.cc: ACSolve, NoiseSolve, LoadMatrixAndRHSAC", "src/Equation/Equation.cc: DefaultACUpdate, DefaultNoiseUpdate", "src/Circuit/data/NodeKeeper.cc: ACUpdateSolution"]}
{"id": "C62", "title": "solve(type=\"noise\") gives the transfer from every equation to the output", "statement": "After a noise solve <output>_<equation>_real/_imag hold for every equation at every node the response of the output to a unit residual of that equation, noise_<output>_real/_imag likewise for circuit nodes; an output that has no equation is refused.", "quantifier": "every system, frequency, output and linear solver", "why_tests_cant": "the claim quantifies over all residuals and solutions of the system", "anchors": ["src/math/Newton.cc: ACSolve, NoiseSolve, LoadMatrixAndRHSAC", "src/Equation/Equation.cc: DefaultACUpdate, DefaultNoiseUpdate", "src/Circuit/data/NodeKeeper.cc: ACUpdateSolution"]}
{"id": "C63", "title": "The iterative linear solver solves what it says it solved", "statement": "With solver_type=\"iterative\" the linear solver always ends without dividing by zero when the preconditioned matrix is not singular; the relative residual it reports is that of the update it returns; and a solve is reported as successful only if that residual meets the tolerance.", "quantifier": "every linear system of any size, every linear preconditioner", "why_tests_cant": "convergence depends on the spectrum of the matrix; the claim ranges over all matrices", "anchors": ["src/math/gmres.cc: GMRES, Update, ApplyPlaneRotation", "src/math/IterativeLinearSolver.cc: SolveImpl"]}
{"id": "C64", "title": "The preconditioner of the iterative solver is built from the matrix", "statement": "With solver_type=\"iterative\" the matrix that is factored as preconditioner consists of entries of the system matrix: every entry that couples different regions or the circuit, the diagonal, and of the others those of at least half the size of the largest in its row and equation; building it never fails and it is singular only if the system matrix is.", "quantifier": "every set of devices, regions, equations and circuit, every matrix, every order std::sort may give to equal entries", "why_tests_cant": "which entries are dropped depends on all values of a row; the claim ranges over all matrices and numberings", "anchors": ["src/math/BlockPreconditioner.cc: CreateBlockInfo, ProcessBlockInfo, SpecialSort", "src/math/BlockPreconditioner.hh: BlockInfo"]}
{"id": "C65", "title": "Custom equations enter the system exactly as returned", "statement": "The entries returned by every procedure registered with custom_equation are added to the system, at the rows and columns it names, or where the boundaries moved those rows if it asks for it; an answer of the wrong form, or naming a row that does not exist, is an error; registering a name again replaces its procedure.", "quantifier": "every set of procedures, every answer, every load mode, every set of boundaries", "why_tests_cant": "answers are arbitrary Python objects and the rows interact with all boundaries", "anchors": ["src/math/Newton.cc: AssembleTclEquation, AssembleTclEquations, LoadMatrixAndRHS", "src/Data/GlobalData.cc: AddTclEquation", "src/pythonapi/ObjectHolder.cc: GetInteger, GetListOfObjects"]}
{"id": "C66", "title": "get_matrix_and_rhs exports the system that solve uses", "statement": "The static and dynamic matrices are well formed compressed matrices in the format asked for, their entries and right hand sides are those of the static and charge systems assembled at the current state (so that a solve uses b0 static + a0 dynamic, the Jacobian), and the permutation arrays say what the boundaries did with every row; the command does not access memory out of bounds.", "quantifier": "every system of devices, boundaries, circuit and custom equations, both formats", "why_tests_cant": "the export depends on the sparsity of both matrices", "anchors": ["src/math/Newton.cc: GetMatrixAndRHSForExternalUse", "src/commands/MathCommands.cc: getMatrixAndRHSCmdImpl", "src/math/CompressedMatrix.cc"]}
{"id": "C67", "title": "VTK files hold the mesh and its models", "statement": "write_devices with type vtk writes for each region, in the order of their names, one file whose points are the nodes, whose cells are the edges, triangles or tetrahedra of the region, and whose arrays are the values of the models displayed for which include_test is true, without loss of a bit; the .vtm and .visit files name these files, no other file changes, and a failure to write is reported", "quantifier": "every region of dimension 1 to 3 with any number of nodes, elements and models, every include_test, every state of the file system", "why_tests_cant": "a test writes one small mesh and looks at it; arrays are split into blocks of 4096 values, and the last block is special", "anchors": ["src/meshing/VTKWriter.cc", "src/utility/base64.cc", "src/meshing/MeshWriter.cc", "src/commands/MeshingCommands.cc writeDevicesCmd", "devsim.write_devices"]}
{"id": "C68", "title": "Tecplot files hold the mesh and its models", "statement": "write_devices with type tecplot writes one zone for each region, in the order of their names, whose columns are the values of the models displayed for which include_test is true, in each region that has them, zero in the others, and whose elements are those of the region; a model is shown as in the first region that has it; a reader finds again the same numbers under the same names, and lines that are broken lose nothing", "quantifier": "every device of dimension 1 to 3 with any regions, nodes, elements and models, every include_test, every text of the lines", "why_tests_cant": "a test writes a few small devices and compares the text with a stored one; it does not read it back, and no line of a test is long enough to be broken", "anchors": ["src/meshing/TecplotWriter.cc BreakLine, WriteBlock, WriteUniform, WriteNodeBlock, WriteEdgeBlockScalar, WriteEdgeBlockVector, WriteTriangleEdgeBlockScalar, WriteSingleDevice", "devsim.write_devices"]}
{"id": "C69", "title": "The values given to a model are the values read back", "statement": "After set_node_values, set_edge_values or set_element_values with a list of the right length, with init_from, or after set_node_value, get_node_model_values (get_edge_model_values, get_element_model_values) returns exactly the values given, the values of the other model, or the old values with the one that was set replaced; they stay until a command writes or deletes that model (for a model with an expression: or one it depends on), and a command that reports an error gives no values.", "quantifier": "every device, every history of commands that create, set, read and delete models, every list of values, index and model", "why_tests_cant": "the values pass through uniform and expanded storage, lazy evaluation and the invalidation of dependent models, whose state depends on all the commands before", "anchors": ["src/commands/ModelCommands.cc: setNodeValuesCmd, setNodeValueCmd, printNodeValuesCmd, printEdgeValuesCmd, printElementEdgeValuesCmd", "src/models/NodeModel.cc: SetValues, SetNodeValue, GetScalarValues, CalculateValues", "src/models/ModelDataHolder.cc"]}
{"id": "C70", "title": "An interface model has the values of its expression at the nodes of the interface", "statement": "get_interface_model_values of an interface model gives, for each pair of nodes of the interface, the value of its equation there: x@r0 and x@r1 are the values of the node model x of region 0 and 1 at the node of that region (or the parameter x of that region), a name without region is a parameter with the same value in both regions or a circuit node, and an interface model is its own values, whatever was calculated before; an equation without a value (a name that does not exist, a parameter that differs, a circular dependency, an exception) is an error.", "quantifier": "every expression, every set of interface models, node models, parameters and circuit nodes, every node numbering on the two sides, every order of evaluation", "why_tests_cant": "the values go through a cache that is shared by the evaluations in progress, data shared between expressions, models evaluated within models and a list of errors that decides whether a value is used, so the result could depend on what was evaluated before", "anchors": ["src/AutoEquation/InterfaceModelExprEval.cc: InterfaceModelExprEval", "src/AutoEquation/InterfaceModelExprData.cc: op_equal", "src/AutoEquation/InterfaceNodeExprModel.cc: calcNodeScalarValues", "src/models/InterfaceNodeModel.cc: CalculateValues", "src/AutoEquation/InterfaceExprEquation.cc: DerivedAssemble"]}
{"id": "C71", "title": "Equations are reported back as they were given", "statement": "After any sequence of equation, contact_equation, interface_equation and delete commands, successful or not, get_equation_command, get_contact_equation_command and get_interface_equation_command report for an equation every option of the manual and no other, each with the value with which the equation was last given (or its default; name0 and name1 are the name of the equation), and fail for an equation that does not exist; the lists hold every equation of the place once; a report given back to the command that creates the equation is accepted and changes no report; a command that fails changes no report; the command that write_devices saves for an equation gives the same report when it is executed; an equation that is accepted names models that exist.", "quantifier": "every history of equation commands on every device, with every option", "why_tests_cant": "every option passes through a constructor with a dozen string arguments of the same type and comes back through another list, so two exchanged arguments show only if the right two options are compared; and what is reported depends on the whole history of replaced, refused and deleted equations", "anchors": ["src/commands/EquationCommands.cc: createEquationCmd, createInterfaceEquationCmd, createContactEquationCmd, getEquationListCmd", "src/AutoEquation/ExprEquation.cc: GetCommandOptions_Impl", "src/AutoEquation/ExprContactEquation.cc: GetCommandOptions_Impl", "src/AutoEquation/InterfaceExprEquation.cc: GetCommandOptions_Impl", "src/Geometry/Contact.cc: AddEquation", "src/Geometry/Interface.cc: AddInterfaceEquation", "src/Geometry/Region.cc: AddEquation"]}
{"id": "C72", "title": "Models made from other models have the documented names, and the saved commands of models make them again", "statement": "After edge_from_node_model, element_from_node_model, element_from_edge_model or element_pair_from_edge_model, in 2D or 3D and with or without derivative, exactly the models with the names of the manual are there (n@n0, n@n1; n@en0 ...; e_x ...; e_x:v@en0 ...; e_node0_x ...; e_node0_x:v@en0 ...), all different; and the command that write_devices saves with such models makes the same models again when it is executed where there are the same models. The same holds for node_model, edge_model and element_model, with name, equation and display_type.", "quantifier": "every device of 2 or 3 dimensions, every set of models, every command and its options", "why_tests_cant": "there are eleven classes with up to 24 names each, and each writes its own command: a slip in one class shows only for one combination of command, dimension and option", "anchors": ["src/commands/ModelCommands.cc: createEdgeFromNodeModelCmd, createTriangleFromEdgeModelCmd", "src/models/TetrahedronEdgeFromEdgeModelDerivative.cc: Serialize", "src/models/TriangleEdgePairFromEdgeModelDerivative.cc", "src/models/TetrahedronEdgePairFromEdgeModelDerivative.cc", "src/models/EdgeFromNodeModel.cc", "src/commands/ModelCommands.cc: createNodeModelCmd", "src/AutoEquation/TriangleEdgeExprModel.cc: Serialize"]}

# Formal model of caribou in Rocq/Coq 8.16.1 — design

## 1. Shape of the development

All Coq files are in `rocq/theories/` (logical prefix `Verif`).  Each area of the code has up to
four files:

* `XModel.v` — total, computable (or at least definitional) functions written function by function
  after the C++; every definition cites file and lines of `/repo`.  No proofs.
* `XSpec.v` — small independent specification (when the property is not already elementary).
* `XProofs.v` — lemmas.
* `XProperties.v` — the theorems only (`Proof. exact … . Qed.`), with a concrete non-trivial
  `Example` beside each, and `Print Assumptions`.

Number domains.

* integer index computations: `Z`, unbounded (machine overflow is *not* modelled, except where a
  theorem says `mod 2^64` explicitly);
* scalars: `R` of the standard library, exact arithmetic (rounding is *not* modelled); `EPSILON`
  and the other numeric constants keep their literal values;
* conjugate gradient termination: any `realFieldType` of mathcomp, so that dimension arguments are
  available without axioms;
* undefined behaviour (out-of-bounds write, non-termination, read of an uninitialised or dangling
  pointer) is a distinct outcome of the modelled function, never a silently chosen default.

When the faithful model violates a property of the list we prove `…_refuted` with an explicit
witness, and the strongest true part as `…_partial`.

## 2. Plan per property

| id | model | proof |
|----|-------|-------|
| C01 | `GridModel`: index/coordinate functions over `Z` for D=1,2,3 | div/mod arithmetic |
| C02 | `GridModel`: `node_indices_of` | arithmetic against the lattice of corners |
| C03 | `GridModel` | injectivity of the node numbering |
| C04 | `GridModel`: `edge`, `number_of_edges` | bijection with the set of unit lattice edges |
| C05 | `GridModel`: `face`, `number_of_faces` | same with unit squares |
| C06 | `GridGeoModel`: anchor/size/H over `R` | field arithmetic + C02; tiling by floor |
| C07 | `GridGeoModel`: `cell_coordinates_at` with the truncating cast | floor/trunc lemmas |
| C08 | `GridGeoModel`: `cells_around` | positive part for inside points, refutation outside |
| C09 | `GridGeoModel`: `cells_enclosing` | interval reasoning per axis |
| C10 | `HashGridModel`: map from integer cells to data lists | induction over the history of `add` |
| C11-C16 | `ShapeModel`: every `L`, `dL`, canonical node table | `ring`/`field`, Coquelicot `is_derive` |
| C17 | `GaussModel`: nodes and weights | exact integrals of monomials (Coquelicot `RInt`) |
| C18 | `GaussModel`: announced counts | computation; refuted for two types |
| C19,C20 | `RectModel` | linear algebra in R^2, R^3 |
| C21 | `NewtonLocalModel`: loop of `local_coordinates` | induction over fuel = loop bound of the code |
| C22 | `ShapeModel`: contains_local | interval reasoning |
| C23 | `IntersectModel` | one-dimensional Helly argument |
| C24 | `IntersectModel` | polygon clipping / separating planes; may be partial |
| C25 | `ShapeModel`: constructors from linear | `ring` |
| C26 | `ShapeModel`: tables | trace identities by `ring` |
| C27-C29 | `MeshModel`: heap of meshes/domains with identities | invariants over histories; refutations |
| C30 | `DomainModel` | index arithmetic |
| C31,C32 | `BarycentricModel` over affine elements + hash grid | composition of C10, C21, C22 |
| C33,C34 | `FictModel`: trees of sub-cells, `subdivide`, `get_cell_weight`, `get_gauss_nodes_of_cell` | structural induction |
| C35 | `FictModel`: `get_neighbors` on paths; geometry of the leaves in `FictSpec` | induction on paths, binary positions |
| C36,C37 | `FictModel`: `create_regions`, `tag_outside`, `tag_inside` | invariants of the two nested work lists |
| C38 | `FictModel`: `create_sparse_grid` | invariants of the numbering loop |
| C39,C40 | `FictModel`: `tag_cells_from_implicit_surface`, `get_type_at` | case analysis, refutations |
| C73 | `FictModel`: `create_grid_from_iso_surface`, `create_grid_from_triangles`, the arrays the component keeps between calls | composition of C33-C39; refutations of the repeated creation |
| C74 | `LegacyModel`: the Newton loop of `LegacyStaticODESolver::solve`, with the linear solver (which may fail, keeping its previous unknown) as a parameter | induction over the iterations; refutations for every system that meets their hypotheses |
| C41-C43 | `EigenMatrixModel`: triplets, storage by inner vectors with free room of arbitrary content | refinement of histories of calls to a table of numbers; binary search |
| C44-C46 | `CGModel` (matrices over any ordered field): both solves, preconditioners, storing of the result; a division by zero is an explicit outcome | the run as a sequence of states; orthogonality invariants, dimension count and Krylov spaces |
| C52-C54 | `MaterialModel` | Coquelicot derivatives |
| C55-C58 | `HyperModel`: gauss data, assembly | chain rule, permutations of triplets |
| C69 | `HyperModel`: `component`, `step` | induction over histories of calls |
| C59,C60 | `CorotModel` | equivariance of the frames, partition of unity, invariants over histories of calls; refutations on one cube |
| C47-C49 | `NewtonModel`: the Newton-Raphson loop over any ODE system and any linear solver, whose answers are arbitrary and may change at each call; NaN is an explicit value; the component kept between calls | invariant of the loop; sequences of solves and resets as lists of calls |
| C50, C51, C72 | `NewtonModel` (section `Ode`): static and backward Euler right-hand sides, matrices and propagations over matrices of any ordered field, projective constraints as a projection | algebra of the affine case; energy identity |
| C70 | `CorotModel` | weak form: work of the forces of an element as a bilinear form of displacement gradients |
| C71 | `CorotModel`: `reinit` | equality of states; scaling of the stiffness for hexahedra |
| C61 | `MappingModel` | exchange of finite sums |
| C62,C63 | `TractionModel` | sums; induction over event histories |
| C64 | `BBoxModel` | fold invariant; refutation |
| C65 | `TensorModel` | `ring` |
| C66,C67,C68 | `VtkModel` | permutation computation; list induction |
| C77 | `IsoModel`: the three implicit functions; `FictModel` for the grid | real arithmetic; convexity of the disc; composition with C73 |
| C75 | `DirectModel`: the component around Eigen's decompositions, which are parameters with their documented rules of use | invariant over the history (the kept analysis is that of the current dimension); refutations |
| C76 | `TopologyModel`: the data, the vector of indices with its address and capacity, the internal or attached domain | invariant over the history; refutations for indices set again |
| C78 | `VecOpsModel`: the visit of a list of mechanical states; the branches of `dot` | induction on the states and on the vectors |
| C79 | `FictParModel`: the turns of the loop on the queue of each cell, any interleaving | simulation: what the cell will be once the queue is done is invariant; the work left decreases by one at each turn |
| C80 | `GridMachModel.v`: the functions of `GridModel.v` with every operation performed in the C++ type (unsigned modulo 2^64, conversions to signed 64 and 32 bits). Proof: congruence modulo 2^64 through sums and products, exactness of the operands of each division and comparison, then transport of the bijections of C01-C05. Above the bounds: universal refutations. |
| C81 | `SetupModel.v`: element types and their names, SOFA's containers, the objects of a context, `canCreate` and `init` on top of the topology component of C76. Spec: class hierarchy as an inductive relation, `holds`, names equal up to letter case, `works_on`. Proof: case analysis on the description, induction on the list of objects. Refuted: uniqueness when the type is deduced from the node, several topologies, rest configuration, missing state. |
| C82 | `FpModel.v`, `GridFpModel.v`: the queries of BaseGrid.h operation by operation on IEEE 754 binary64 (Flocq's `binary_float 53 1024`, round to nearest even; conversions to integers may be undefined). Spec: real value of a double, the boxes of `GridGeoSpec.v` enlarged by 2^-50 of the distance to the anchor. Proof: relative error of each operation (Flocq's error lemmas), monotonicity of rounding, induction on the axes. Refuted: tolerances of `contains` and `cells_around`, upper sides, far-away grids. |
| C83 | `ShapeFpModel.v`: the formulas of get_L and get_dL as syntax trees, evaluated with reals (proved to be `ShapeModel.v`) and with IEEE doubles; interpolation and Jacobian summed along an arbitrary tree. Proof: a verified magnitude-and-error analysis of formulas over the rationals (soundness by induction on the formula, run by the kernel on each element's formulas), induction on the summation tree. Refuted: sign of the first shape function of the linear tetrahedron. |
| C84 | `HashFpModel.v`: HashGrid.h with IEEE doubles (Flocq) and overflow-checked 64-bit integers (undefined behaviour is an outcome). Spec: bounding boxes of `GridGeoSpec.v` on the real values. Proof: rounding is monotone, so the rounded quotient of a point of the box lies between those of the corners; in range every machine operation agrees with `HashGridModel.v`; induction on the history. Refuted: far coordinates, zero cell size. |
| C85 | `ContainsFpModel.v`: get_contains_local of every element and IN_CLOSED_INTERVAL with IEEE doubles. Spec: `in_reference` of `ShapeSpec.v` on the real values. Proof: gradual underflow and the spacing of doubles above 1 make the sign of `(x-a)*(x-b)` exact; overflowing and infinite coordinates are followed through the chain of subtractions; error analysis of `1-u-v-w`. Refuted: closed tetrahedron with tolerances up to 2^-55, zero tolerance on simplices. |
| C86 | `CGFpModel.v`: the assembled `solve` and `solveSystem` with IEEE doubles, sparse rows, an arbitrary order for each sum and an arbitrary preconditioner. Spec `CGFpSpec.v`: the exact residual and norms over the reals. Proof: a finite result has finite operands, so the reported convergence makes the whole run finite backwards; the gap between recorded and exact residual grows by a bounded amount per iteration (invariant over the iterations); error analysis of the norms and of the threshold. Refuted: a distant initial guess, a tolerance below the precision, an infinite solution, an overflowing right-hand side. |
| C87 | `Hexahedron_intersects_segment` and `Hexahedron_intersects_triangle` of `IntersectModel.v` (BaseHexahedron.h:147-167, 227-331), on the iterative local coordinates of `RectModel.v`. Spec `IntersectSpec.v`: the element is the image of the cube. Proof: for an affine element the local coordinates are exact (C21) or the point is in the element and its computed coordinates in the cube; the map is an affine bijection, so the exact test on the cube (C23, C24) carries over. Refuted: a frustum (both ways), an element smaller than 1e-5. |
| C88 | `PyMeshModel.v`: the bindings as statements on variables over the heap of `MeshModel.v`; a mesh is destroyed with its last variable and takes its domains with it, domains and containers hold plain pointers. Spec `PyMeshSpec.v`: what the writer believes (meshes are numbered and never destroyed, a domain is the j-th table of the k-th mesh). Proof: simulation between beliefs and heaps, by induction on the script; the first use of a domain without a variable for its mesh reads a destroyed object. |
| C89 | `SceneModel.v`: the calls on the matrix wrapper of `EigenMatrixModel.v` made by the visitors for a list of states (with their mappings), force fields and constraints; mapped matrices are tables, pulled back by `J^t A J`, last mapping first. Spec `SceneSpec.v`: admissible motions, virtual work, solutions. Proof: the product of two motions through the table after each call; induction on the mapped states; the calls are legal for C41, which gives the entries of the sparse matrix. |
| C90 | `SpectrumModel.v`: the component of `HyperModel.v` with the number of rows of its matrix, the eigenvalues kept and their flag; requests of the simulation and of scripts. The eigenvalue solver is a parameter. Spec `SpectrumSpec.v`: eigenvalues, condition number, histories. Proof: invariants of the flags over histories; the derivatives of the shape functions sum to zero, so that each row of the stiffness annihilates the translations; eigenvalues are finitely many (independence of eigenvectors), which gives a witness for the hypothesis on the solver. |
| C91 | `DenseModel.v`: memory of a dense matrix by rows or columns, cells that may be uninitialised, the calls with the loops over coefficients and the bounds asserted by Eigen as failures; vectors; programs with matrices of the user and wrappers that own or refer. Spec `DenseSpec.v`: tables with unknown entries, effect of a call, which calls of a program concern which object. Proof: refinement of the memory to tables; induction over programs; with C41 for the sparse wrapper. |
| C92 | `FactoryModel.v`: the argument conversions and the two passes of overload resolution of pybind11, the tables of overloads of the six functions in their order, the constructors called. Spec `FactorySpec.v`: families, the ways of writing points, numbers of the arguments, reference elements, equal geometry. Proof: all overloads but one reject the arguments, by their number or by the shape of the first, in both passes; conversions keep the numbers; C25 for promoted elements. |
| C93 | No new model: `HyperModel.v` and `MaterialModel.v` (C30, C31, C90). Spec `StabilitySpec.v`: displacement gradient, strain, Hooke's energy, quadratic form and kernel of a matrix, rigid motions, meshes in one piece, held nodes. Proof: the assembled form is the sum over integration points of twice the elastic energy density; its zeros are zero strains; an element with an affine map and enough points is moved rigidly; the integration points of any linear hexahedron form a linkage of eight solids joined by twelve hinges along the edges of a box, which is rigid when one corner is open; rigid motions that agree on three points that are not aligned agree everywhere; induction along the chain of elements. For twenty nodes, a linear system with more unknowns than equations. |
| C94 | `DrawModel.v`: the three draw functions as the list of calls drawTriangles they make (vertices and color), with the loops over elements and the vertex arrays. Spec `DrawSpec.v`: triangles of a vertex array, closed surfaces (every antisymmetric quantity on edges adds up to zero), enclosed volume by the divergence theorem, areas, convex hulls, affine motions, orientation seen from a point. Proof: the loop gives, face by face, the concatenation over the elements; then algebra on one element of each type with symbolic nodes. |
| C95 | `PyGridModel.v`: the classes with their chains of overloads and bases, the dispatcher and the type casters of pybind11 (positional arguments), the bound functions on machine integers and reals. Spec `PyGridSpec.v`: ways to write arguments, rank of coordinates, corners, lattice edges and squares, table of answered calls. Proof: exact effect of each chain on each kind of argument, then the theorems on numbering (C01-C05 and C80), location (C07, C08) and hash grids (C10). |
| C96 | Model of C53-C56 (`HyperModel.v`, `MaterialModel.v`). Spec `EnergySpec.v`: deformation gradient, integral of the density, states without stretch, rigid placements, shapes with a plane face or a corner that is not folded. Proof: Hadamard's inequality and ln x <= x - 1 for the sign and the zeros of the Neo-Hookean density, a sum of squares for the other law; the rotations of the integration points of an element agree (each face of their box is either kept or mirrored; the sense of rotation about the three edges of a corner shows that they cannot all be mirrored), then the placements of neighbours that share three nodes agree. Explicit placements for the refutations. |
| C97 | Models of C53-C56 (`HyperModel.v`, `MaterialModel.v`) and of C59, C70 (`CorotModel.v`). Spec `PatchSpec.v`: faces of the elements, faces around a node, a list of faces where each one is also there from the other side, integral over a face of the shape function of a node times the normal. Proof: the stress is the same at all integration points; the quadrature of det(J) J^-T dL of a node over an element is the sum of its shares of the faces (by computation, for symbolic node positions); the shares of the two sides of a face cancel. Spec `HexPatchSpec.v`: quadratic hexahedra with straight edges and the shares of their faces. Explicit meshes for the refutations. |
| C98 | Models of C62, C63 (`TractionModel.v`) with those of C97. Spec `LoadSpec.v`: outlines of the surface elements, plane faces with a given normal, a traction on a part of the boundary, the state once it is fully applied, nodes whose faces are all loaded, free of traction or covered. Proof: the surface quadrature of the shape function of a node times the normal is its share of the face (by computation, for symbolic positions), so the nodal forces of the tractions are the opposite of those of C97. |
| C99 | Model `EmbeddingModel.v`: scene trees, SOFA's searches and paths, canCreate, the factory, init, apply, applyJT and histories in which each initialisation of the topology makes a new domain and destroys the previous one. Spec `EmbeddingSpec.v`: objects at a path, contexts, unique names, the nearest topology of a type. Proof: induction on paths, on the chain of parents and on histories; the embedding itself is that of C61. |
| C100 | Model `DistributionModel.v`: the loop over the cells, `std::round` and the sorted map, on the component made by the creation of C73. Spec `DistributionSpec.v`: a table that sorts the cells by a value, the part of a cell that is kept as a ratio of volumes, rounding to the nearest multiple. Proof: induction on the loop with the sorted table as invariant; the weight of a cell is the ratio of volumes by C33; a cell with all corners on one side is a single leaf of that type. |
| C101 | Model `SimulationModel.v`: the scene (linear solvers with the state of their Eigen object, ODE solver, state of the mechanical objects), init, reset, the Newton loop with the four strategies, and histories of events, on the direct solvers of C75. Spec `SimulationSpec.v`: Newton's method as an inductive relation on exact solutions, what each event of a history should do. Proof: induction on the iterations and on the history; invariant: the analysis held by the linked solver is that of the current matrix. Not modelled: the conjugate gradient as a linear solver (C13, C47), the creation of a default solver by the factory. |
| C102 | Models of C57, C58 and C59 (`HyperModel.v`, `MaterialModel.v`, `CorotModel.v`). Spec `ObjectivitySpec.v`: vectors turned node by node; `rigid` and `rotation` are those of C59 and C54. Proof: the deformation gradient of the moved body is Q F, the stress of Q F is Q times that of F (C54), the blocks of the tangent become Q K Q^T; for another rest frame F becomes F Q^T and the isotropic stresses are conjugated by Q; for corotational elements the frame of the moved element is Q times its frame, so that the displacement in the frame changes by a translation only. |
| C103 | Models of C57, C58, C59 and of the reference elements (`HyperModel.v`, `MaterialModel.v`, `CorotModel.v`, `ShapeModel.v`). Spec `NumberingSpec.v`: renumberings as bijections with their inverse; listings as products of explicit affine symmetries of the reference element, shown to map its nodes to its nodes in the stated order. Proof: a symmetry permutes the Gauss points and the shape functions; by the chain rule the reference Jacobian of the relisted element is J A with |det A| = 1, so gradients in the rest frame and volumes agree point by point; sums over elements and nodes are rearranged. |
| C104 | Model `NewtonModel.v` (section `Ode`), as for C51. Spec `MomentumSpec.v`: momentum and moment of mass along a direction, loads that are external only, simulations as lists of time steps with the component passed on. Proof: along such a direction each linear system reduces to one scalar equation, so that every iteration, converged or not, gives the same momentum; induction on the steps. That the internal forces of the force fields cancel is C57. |
| C105 | Model `TractionModel.v`, as for C62 and C63. Spec `SurfaceSpec.v`: symmetries of the triangle and of the square, same surface, frames, parts; numberings from `NumberingSpec.v`. Proof: the loads depend on the surface through one weight per node and the total area; both are integrals of the square root of a Gram determinant, invariant under the symmetries and the isometries; then a simulation argument over the events, by induction. |
| C106 | Models `MappingModel.v` and `BarycentricModel.v`, as for C31, C32 and C61. Spec `FollowSpec.v`: affine maps, moment, common face, conforming mesh, reordered mesh. Proof: the rows of J have sum 1, hence commute with affine maps; moment = power in the rotations, then C61; on a common face the weights of a simplex are unique. |
| C107 | Models `HyperModel.v` and `CorotModel.v`, as for C96 and C97. Spec `RemeshSpec.v`: skin, same skin, enclosed volume. Proof: the signed volume of a mesh is a polynomial of degree 1 in each node, whose gradient at a node is the sum of the shares of the faces around it; inner nodes have none (C97), so they may be moved one at a time; Euler's identity gives the volume from the skin. |
| C108 | Models `HyperModel.v`, `MaterialModel.v`, `CorotModel.v`, `TractionModel.v`, `IntersectModel.v`, `NewtonModel.v`. Spec `UnitsSpec.v`, `UnitsSpec2.v`, `UnitsSpec3.v`: meshes, materials, loads, systems and states in other units. Proof: the jacobian is multiplied by a, so the gradients of the shape functions by 1/a and the deformation gradient by 1; the stress is linear in the moduli; the specifications of `addForce`, `addDForce` and the energy give the powers. The loads and the corotational force fields are simulations: every event or call commutes with the change of units. So is the Newton-Raphson solver: each turn of its loop commutes, by induction on the number of turns. The static solver is an instance: the rows of the fixed unknowns keep the identity of `ConstrainGlobalMatrix`, so the matrix is multiplied by k / a on the free unknowns only. |

Nothing in the list is outside of what a model can express; what is left out of the model is stated
in section 3.

## 3. Trusted base

* Coq 8.16.1's kernel.
* What `Print Assumptions` lists under each theorem (full list at the end of this section): at most the standard library's
  `ClassicalDedekindReals.sig_forall_dec`, `ClassicalDedekindReals.sig_not_dec`,
  `FunctionalExtensionality.functional_extensionality_dep` and `Classical_Prop.classic`.  No axiom is added.
* The faithfulness of the hand-written models to the C++ (cited line by line).

C55, C56 and C57 range over non degenerate elements (and non inverted ones for C56 and for the Neo-Hookean law, whose energy contains ln J); their
quantifiers were first "every mesh and deformation": otherwise the code divides by zero or takes the logarithm of a non-positive number.

Numbers are exact (reals, unbounded integers) in all properties but six: C80 models the machine integers of the grid numbering, C84 those of the spatial hash; C82, C83, C84, C85 and C86
model the IEEE doubles of the grid queries, of the shape functions and of the spatial hash (Flocq's definition of the format and of its operations, round to nearest even).

Not modelled elsewhere: floating point rounding, NaN/overflow, machine integer overflow, template
instantiation and compile-time dispatch, Eigen's and SOFA's internals (only the documented effect
of the calls used), visualisation, XML/SOFA data plumbing, timers and logging.  File by file, what is left out:

* `Caribou/Python/**`, `SofaCaribou/Python/**`: the pybind11 bindings, except the tolerance they give to contains_local (C85) and the lifetimes of the meshes, domains and containers of a script (C88: `Topology/Mesh.cpp`, `Topology/Domain.h`, `Topology/BarycentricContainer.h`; the reference counts of Python are modelled by the variables of the script, its own data structures are not). `py::cast` of an existing object, which pybind11 answers with the existing Python object, is trusted.
* `CaribouForcefield[*].cpp`: `triangulate_face` and the drawing; `draw` everywhere.
* `BaseDomain.h`, `BaseMesh.h`, `LinearSolver.h`, `IsoSurface.h`, and the laws of `HyperelasticMaterial.h`: interfaces (their implementations are modelled; `canCreate` of the materials is not);
  `traits.h.in`, `constants.h.in`, `version.h.in`, `init.cpp`, the explicit instantiations and the registrations in the object factory.
* `AssembleGlobalMatrix`, `ConstrainGlobalMatrix`: `SceneModel.v` models the calls they make for the states, force fields and constraints they find, in this order, with the stop at the mappings that do not map matrices; the graph itself, its traversal by SOFA and SOFA's `DefaultMultiMatrixAccessor` (positions of the states, `J^t A J`) are trusted to be as the comments of `EigenSolver.inl` describe them; the states mapped from several inputs are left out.  `NewtonModel.v` takes
  their effect for granted: one matrix for all the force fields (`mbk_matrix`), and the rows and columns of the fixed degrees of freedom replaced by those of the identity (`constrain`).
* `EigenVector.h`: not modelled; where a solver uses it, the model has the vector itself.
* Eigen's factorizations (`LLT`, `LDLT`, `SparseLU`, the incomplete ones) and eigenvalue computations: a factorization is an arbitrary function that either fails or gives a way to solve
  (`DirectModel.v`; what the solve of a successful factorization returns is a hypothesis of the theorems that need it).  `CGModel.v` defines the identity and diagonal
  preconditioners; the incomplete factorizations are not modelled: `solve` takes an arbitrary function as the preconditioner, in `CGFpModel.v` too.
* `Benchmark/`, tests, CMake files.

<!-- generated: trusted base -->

Sources cited by each model file (the line ranges are in the comments of the definitions):

| model | sources |
|---|---|
| `BBoxModel.v` | `CaribouForcefield.inl`, `HexahedronElasticForce.cpp`, `TetrahedronElasticForce.cpp` |
| `BarycentricModel.v` | `BarycentricContainer.h`, `Domain.h` |
| `CGFpModel.v` | `ConjugateGradientSolver.inl`, `EigenSolver.inl` |
| `CGModel.v` | `ConjugateGradientSolver.inl`, `EigenSolver.inl`, `config.h.in` |
| `ContainsFpModel.v` | `BaseHexahedron.h`, `BaseQuad.h`, `BaseRectangularHexahedron.h`, `BaseRectangularQuad.h`, `BaseSegment.h`, `BaseTetrahedron.h`, `BaseTriangle.h`, `Element.h`, `macros.h.in` |
| `CorotModel.v` | `BaseTetrahedron.h`, `HexahedronElasticForce.cpp`, `HexahedronElasticForce.h`, `TetrahedronElasticForce.cpp` |
| `DenseModel.v` | `EigenMatrix.h`, `EigenVector.h` |
| `DirectModel.v` | `EigenSolver.h`, `EigenSolver.inl`, `LDLTSolver.cpp`, `LDLTSolver.inl`, `LLTSolver.cpp`, `LLTSolver.inl`, `LUSolver.inl`, `LegacyStaticODESolver.cpp` |
| `DistributionModel.v` | `FictitiousGrid.cpp`, `FictitiousGrid.inl` |
| `DrawModel.v` | `CaribouForcefield.inl`, `CaribouForcefield[Quad].cpp`, `HexahedronElasticForce.cpp`, `TetrahedronElasticForce.cpp` |
| `EigenMatrixModel.v` | `EigenMatrix.h` |
| `EmbeddingModel.v` | `CaribouBarycentricMapping.inl`, `CaribouBarycentricMapping[Tetrahedron].cpp`, `CaribouTopology.inl` |
| `FactoryModel.v` | `BaseRectangularHexahedron.h`, `Caribou.cpp`, `Hexahedron.cpp`, `Hexahedron.h`, `Quad.cpp`, `Quad.h`, `RectangularHexahedron.cpp`, `RectangularHexahedron.h`, `Segment.cpp`, `Segment.h`, `Tetrahedron.cpp`, `Tetrahedron.h`, `Triangle.cpp`, `Triangle.h` |
| `FictModel.v` | `BaseRectangularHexahedron.h`, `BaseRectangularQuad.h`, `FictitiousGrid.cpp`, `FictitiousGrid.h`, `FictitiousGrid.inl`, `Grid.h`, `Hexahedron.h`, `Quad.h`, `RectangularHexahedron.h`, `RectangularQuad.h`, `macros.h.in` |
| `FictParModel.v` | `FictitiousGrid.cpp` |
| `FpModel.v` | `config.h.in` |
| `GridFpModel.v` | `BaseGrid.h`, `macros.h.in` |
| `GridGeoModel.v` | `BaseGrid.h`, `BaseMultidimensionalGrid.h`, `BaseRectangularHexahedron.h`, `BaseUnidimensionalGrid.h`, `Grid.h`, `Hexahedron.h`, `Quad.h`, `RectangularHexahedron.h`, `RectangularQuad.h`, `config.h.in`, `macros.h.in` |
| `GridMachModel.v` | `BaseGrid.h`, `BaseMultidimensionalGrid.h`, `FictitiousGrid.cpp`, `Grid.h`, `HyperelasticForcefield.inl`, `config.h.in` |
| `GridModel.v` | `BaseGrid.h`, `BaseMultidimensionalGrid.h`, `BaseUnidimensionalGrid.h`, `Grid.h` |
| `HashFpModel.v` | `BaseGrid.h`, `HashGrid.h`, `config.h.in` |
| `HashGridModel.v` | `HashGrid.h` |
| `HyperModel.v` | `HyperelasticForcefield.h`, `HyperelasticForcefield.inl`, `Strain.h` |
| `IntersectModel.v` | `BaseHexahedron.h`, `BaseRectangularHexahedron.h` |
| `IsoModel.v` | `CircleIsoSurface.h`, `CylinderIsoSurface.h`, `IsoSurface.h`, `SphereIsoSurface.h` |
| `LegacyModel.v` | `EigenSolver.inl`, `LegacyStaticODESolver.cpp` |
| `MappingModel.v` | `CaribouBarycentricMapping.h`, `CaribouBarycentricMapping.inl` |
| `MaterialModel.v` | `NeoHookeanMaterial.h`, `SaintVenantKirchhoffMaterial.h` |
| `MeshModel.v` | `Domain.h`, `Mesh.h` |
| `NewtonModel.v` | `BackwardEulerODESolver.cpp`, `NewtonRaphsonSolver.cpp`, `NewtonRaphsonSolver.h`, `StaticODESolver.cpp` |
| `PyGridModel.v` | `BaseGrid.h`, `BaseMultidimensionalGrid.h`, `Grid.cpp`, `Grid.h`, `HashGrid.cpp`, `HashGrid.h` |
| `PyMeshModel.v` | `BarycentricContainer.h`, `Domain.h`, `Mesh.cpp`, `Mesh.h` |
| `RectModel.v` | `BaseHexahedron.h`, `BaseRectangularHexahedron.h`, `BaseRectangularQuad.h`, `Element.h`, `RectangularHexahedron.h`, `RectangularQuad.h` |
| `SceneModel.v` | `AssembleGlobalMatrix.cpp`, `BackwardEulerODESolver.cpp`, `ConstrainGlobalMatrix.cpp`, `EigenSolver.inl`, `StaticODESolver.cpp` |
| `SetupModel.v` | `CaribouForcefield.h`, `CaribouForcefield.inl`, `CaribouForcefield[Tetrahedron].cpp`, `CaribouTopology[Triangle].cpp`, `HyperelasticForcefield.inl` |
| `ShapeFpModel.v` | `Element.h`, `Hexahedron.h`, `Quad.h`, `RectangularHexahedron.h`, `RectangularQuad.h`, `Segment.h`, `Tetrahedron.h`, `Triangle.h` |
| `ShapeModel.v` | `BaseHexahedron.h`, `BaseQuad.h`, `BaseRectangularHexahedron.h`, `BaseRectangularQuad.h`, `BaseSegment.h`, `BaseTetrahedron.h`, `BaseTriangle.h`, `Element.h`, `Hexahedron.h`, `HyperelasticForcefield.inl`, `Quad.h`, `RectangularHexahedron.h`, `RectangularQuad.h`, `Segment.h`, `Tetrahedron.h`, `Triangle.h`, `macros.h.in` |
| `SimulationModel.v` | `NewtonRaphsonSolver.cpp`, `NewtonRaphsonSolver.h` |
| `SparseModel.v` | `CaribouBarycentricMapping.inl`, `HyperelasticForcefield.inl` |
| `SpectrumModel.v` | `HyperelasticForcefield.h`, `HyperelasticForcefield.inl` |
| `TensorModel.v` | `Tensor.h` |
| `TopologyModel.v` | `CaribouTopology.h`, `CaribouTopology.inl`, `Domain.h` |
| `TractionModel.v` | `TractionForcefield.h`, `TractionForcefield.inl`, `TractionForcefield[Triangle].cpp` |
| `VecOpsModel.v` | `BaseVectorOperations.cpp`, `MultiVecEqualVisitor.cpp`, `MultiVecEqualVisitor.h` |
| `VtkModel.v` | `VTKReader.cpp`, `VTKReader.h` |

What `Print Assumptions` lists, theorem by theorem:

* nothing ("Closed under the global context"): `C01_cells_1d`, `C01_cells_2d`, `C01_cells_3d`, `C01_nodes_1d`, `C01_nodes_2d`, `C01_nodes_3d`, `C02_corners_1d`, `C02_corners_2d`, `C02_corners_3d`, `C03_conforming_1d`, `C03_conforming_2d`, `C03_conforming_3d`, `C03_same_point_1d`, `C04_edges_2d`, `C04_edges_3d`, `C05_faces_3d`, `C101_choice`, `C104_free_flight_refuted`, `C104_isolated`, `C104_loaded_partial`, `C104_step`, `C108_newton_partial`, `C108_newton_refuted`, `C108_static_partial`, `C26_edges_are_face_intersections`, `C26_face_count`, `C26_face_intersections_are_edges`, `C26_faces_well_formed`, `C27_history`, `C27_unique_names`, `C27_used_name_accepted_refuted`, `C27_used_name_rejected_partial`, `C28_never_returns_refuted`, `C28_remove_pointer_exactly_partial`, `C28_removes_exactly_partial`, `C28_returns_iff_first_partial`, `C29_copy_dangles_refuted`, `C29_copy_mesh_pointer_refuted`, `C29_copy_same_content_partial`, `C29_move_mesh_pointer_refuted`, `C29_move_same_content_partial`, `C30_copied_table`, `C30_external_column_major`, `C30_external_is_a_view`, `C30_external_row_major`, `C30_external_strides`, `C44_convergence_is_genuine`, `C44_flag`, `C44_matrix_free`, `C44_recorded_residuals`, `C45_conjugate_increments`, `C45_finite_termination`, `C45_monotone`, `C45_no_breakdown`, `C45_optimal`, `C45_preconditioners`, `C45_projected`, `C46_already_solved_refuted`, `C46_small_right_hand_side_refuted`, `C46_success_partial`, `C46_zero_right_hand_side_refuted`, `C47_flag`, `C47_iterations`, `C47_recorded_residuals_partial`, `C47_single_iteration_refuted`, `C47_static_position`, `C48_first_iteration_refuted`, `C48_not_reported_refuted`, `C48_reported_refuted`, `C49_assemblies`, `C49_never_always_time_step`, `C49_simulation`, `C50_one_step`, `C50_reported`, `C51_equation_of_motion`, `C51_kinematics`, `C51_matrix_is_derivative`, `C51_single_iteration_refuted`, `C51_two_iterations`, `C63_reset_force_refuted`, `C66_hexahedron_same_nodes`, `C72_energy_partial`, `C72_single_iteration_refuted`, `C74_affine`, `C74_failed_solve_refuted`, `C74_failed_warm_start_refuted`, `C74_first_test_refuted`, `C74_flag_partial`, `C74_iterations`, `C74_single_iteration_refuted`, `C76_attached`, `C76_init`, `C76_moved_indices_refuted`, `C76_positions_copied`, `C76_readable_partial`, `C76_rejected_indices_refuted`, `C78_concerned`, `C78_copy_partial`, `C78_exception`, `C78_longer_refuted`, `C80_any_coordinates`, `C80_cells`, `C80_corners`, `C80_edges`, `C80_faces`, `C80_int_loop_partial`, `C80_int_loop_refuted`, `C80_nodes`, `C80_too_large_refuted`, `C81_by_context_partial`, `C81_by_context_unique_refuted`, `C81_by_name_unique`, `C81_by_name`, `C81_by_topology_unique`, `C81_by_topology`, `C81_created_then_initialised`, `C81_found_partial`, `C81_linked_component`, `C81_linked_mesh`, `C81_linked_otherwise`, `C81_material`, `C81_name_changes_result_refuted`, `C81_no_state_refuted`, `C81_not_found`, `C81_quadratic`, `C81_reference_refuted`, `C81_several_refuted`, `C88_deleted_mesh_refuted`, `C88_orphan_use_refuted`, `C88_usable_while_mesh_held_partial`, `C94_hidden`, `C99_absolute_link`, `C99_deduced`, `C99_local_link_refuted`, `C99_nearest_refuted`, `C99_relative_link_refuted`, `C99_template`.
* `ClassicalDedekindReals.sig_forall_dec`: `C101_always`, `C101_between_steps_refuted`, `C101_each_step_partial`, `C101_never_refuted`, `C101_new_link_refuted`, `C101_nothing_solved_refuted`, `C101_once_partial`, `C101_shared_refuted`, `C101_within_step_refuted`, `C103_every_listing_of_a_tetrahedron`, `C105_every_listing_of_a_quad`, `C105_every_listing_of_a_triangle`, `C43_symmetric_values`, `C75_empty_system_refuted`, `C75_failure_refuted`, `C75_history_partial`, `C75_new_pattern_refuted`, `C89_vectors`, `C91_cleared`, `C91_copy`, `C91_in_range`, `C91_new`, `C91_new_unknown`, `C91_own_matrix`, `C91_reference`, `C91_vector_copy`, `C91_vector_in_range`, `C91_vector_new`, `C91_vector_new_unknown`, `C91_vector_own`, `C91_vector_reference`.
* `ClassicalDedekindReals.sig_forall_dec`, `FunctionalExtensionality.functional_extensionality_dep`: `C06_cell_nodes`, `C06_node_positions`, `C06_tiling_cover`, `C06_tiling_disjoint`, `C07_locate_closed_box`, `C07_locate_default`, `C07_locate_default_upper_boundary_refuted`, `C07_outside_detected_refuted`, `C08_complete_partial`, `C08_exact_partial`, `C08_no_duplicates_partial`, `C08_outside_refuted`, `C08_sound_partial`, `C09_clipped_refuted`, `C09_covers_partial`, `C09_tight_partial`, `C09_valid`, `C100_entries`, `C100_implicit`, `C100_once`, `C100_tessellated_partial`, `C100_tessellated_refuted`, `C103_symmetries`, `C105_symmetries`, `C106_affine`, `C106_affine_power`, `C106_moment`, `C108_moduli`, `C10_hash_complete`, `C10_hash_local`, `C11_derivatives_sum_to_zero`, `C11_partition_of_unity`, `C12_kronecker`, `C12_world_coordinates_at_nodes`, `C13_derivative_matrix_size`, `C15_affine_reproduction`, `C16_bilinear_reproduction`, `C16_quadratic_reproduction`, `C16_trilinear_reproduction`, `C19_hexahedron_local_of_world`, `C19_hexahedron_world_of_local`, `C19_quad_near_centre_refuted`, `C20_hexahedron_jacobian`, `C20_hexahedron_jacobian_determinant`, `C20_hexahedron_nodal`, `C20_quad_nodal`, `C21_far_point_mapped_to_centre_refuted`, `C21_linear_simplices_affine`, `C21_result_partial`, `C22_closed_domain_at_zero_refuted`, `C22_closed_domain_contained`, `C22_contains_shape_functions`, `C22_contains_simplex_partial`, `C22_contains_tensor`, `C23_segment_box_exact`, `C23_segment_box_no_miss`, `C24_box_is_contains_local`, `C25_quadratic_of_linear`, `C26_edge_trace`, `C26_face_is_side_partial`, `C26_face_trace_partial`, `C26_faces_outward_partial`, `C26_rectangular_hexahedron_quadratic_refuted`, `C26_sides_bound_the_domain`, `C32_built`, `C33_cell_weight`, `C33_validation_passes`, `C33_weight_is_volume_ratio`, `C33_weights_sum_to_one`, `C35_leaves_do_not_overlap`, `C35_neighbours_exact`, `C35_none_iff_border`, `C35_subdivision_is_valid`, `C35_symmetric`, `C36_regions`, `C37_outside_iff_border_partial`, `C37_two_dimensions_reachable`, `C37_two_dimensions_refuted`, `C38_cells`, `C38_default_threshold`, `C38_elements`, `C38_nodes`, `C38_positive_threshold`, `C39_nonzero_corners_partial`, `C39_subdivision`, `C39_zero_corner_refuted`, `C40_outside`, `C40_shared_face_refuted`, `C40_tessellated_refuted`, `C40_type_partial`, `C41_refines_partial`, `C41_uncompressed_refuted`, `C42_refuted`, `C43_clear_compressed`, `C43_not_symmetric_refuted`, `C61_constraints`, `C61_power`, `C61_total_force`, `C61_unusable`, `C61_velocity_is_derivative`, `C63_added`, `C64_contains_first_node_refuted`, `C64_increasing_refuted`, `C64_lower_corner_partial`, `C64_planar_refuted`, `C64_upper_corner`, `C65_dyad_1_action`, `C65_dyad_1_entries`, `C65_dyad_2_action`, `C65_dyad_2_entries`, `C65_voigt_contraction`, `C66_documented_order_partial`, `C66_hexahedron_documented_order_refuted`, `C66_hexahedron_other_order_partial`, `C67_axes_partial`, `C67_empty_file_refuted`, `C67_lossless`, `C67_nodes`, `C68_domains`, `C73_axis`, `C73_bounds`, `C73_created_again_partial`, `C73_implicit_surface_3D_refuted`, `C73_implicit_surface_partial`, `C73_stale_triangle_refuted`, `C73_stale_types_refuted`, `C73_tessellated_surface`, `C75_unsymmetric_refuted`, `C78_dot`, `C79_any_schedule`, `C79_schedule_independent`, `C87_end_inside`, `C87_false_negative_refuted`, `C87_false_positive_refuted`, `C87_small_element_refuted`, `C89_blocks_independent`, `C89_fixed_partial`, `C89_mapped_moves_fixed_refuted`, `C89_virtual_work`, `C90_inverse_refuted`, `C91_dense_and_sparse`, `C92_dimension_refuted`, `C92_every_call`, `C92_numbers`, `C92_reference`, `C92_reference_in`, `C92_separate`, `C92_together`, `C92_with_order`, `C93_usual_materials`, `C94_closed`, `C94_curved_sides_refuted`, `C94_draws`, `C94_element_by_element`, `C94_faces`, `C94_groups`, `C94_hexahedron_force`, `C94_hexahedron_force_inside`, `C94_hexahedron_force_twice_refuted`, `C94_inside`, `C94_moves_with_the_body`, `C94_tetrahedron_force_drift_refuted`, `C94_tetrahedron_force_partial`, `C94_unit_scale`, `C95_around`, `C95_cell_at_2d_refuted`, `C95_cell_at_3d`, `C95_cells`, `C95_construct`, `C95_constructors`, `C95_contains`, `C95_coordinates_rounded_refuted`, `C95_corners`, `C95_counts`, `C95_edges`, `C95_empty_refuted`, `C95_faces`, `C95_hash_history`, `C95_hash_made`, `C95_hash_names`, `C95_hash_names_refuted`, `C95_hash_none_refuted`, `C95_hidden_refuted`, `C95_locate`, `C95_locate_half_open`, `C95_nodes`, `C95_outside_refuted`, `C95_signatures`, `C95_subdivisions_rounded_refuted`, `C95_through_the_base`, `C99_current`, `C99_defined`, `C99_refused`, `C99_sizes_refuted`, `C99_stale_refuted`.
* `ClassicalDedekindReals.sig_forall_dec`, `ClassicalDedekindReals.sig_not_dec`, `FunctionalExtensionality.functional_extensionality_dep`: `C102_corotational_forces`, `C102_corotational_increments`, `C102_corotational_scene_refuted`, `C102_translation_partial`, `C102_without_option_refuted`, `C103_corotational_listing_refuted`, `C103_corotational_numbers`, `C103_corotational_order`, `C103_mirrored_listing_refuted`, `C103_without_corotation_listing_partial`, `C105_added`, `C105_frame`, `C105_listing`, `C105_numbers`, `C105_parts`, `C107_linear_elasticity_partial`, `C107_volume_partial`, `C108_corotational_forces`, `C108_corotational_increments`, `C108_corotational_matrix`, `C108_loads`, `C17_nodes_interior`, `C18_gauss_count_partial`, `C18_gauss_count_refuted`, `C20_hexahedron_fit_round_trip`, `C24_triangle_box_exact`, `C33_quadrature_weights`, `C34_points_in_their_cells_partial`, `C34_second_level_positions`, `C34_second_level_refuted`, `C34_two_dimensions_cut_refuted`, `C59_balanced`, `C59_rigid_motion`, `C60_K_outdated_refuted`, `C60_K_refuted`, `C60_matrix_and_increment_partial`, `C62_area_parallelograms`, `C62_area_triangles`, `C62_total`, `C62_virtual_work`, `C63_constant`, `C63_forces`, `C63_history_partial`, `C63_never_larger`, `C63_reached`, `C63_reset_constant_refuted`, `C63_reset_step_refuted`, `C70_corotated_aligned_partial`, `C70_corotated_refuted`, `C70_without_corotation`, `C71_history_forgotten_tetrahedra`, `C71_reinit_hexahedra_refuted`, `C71_reinit_tetrahedra_partial`, `C71_switch_off_refuted`, `C77_circle_and_sphere`, `C77_circle_grid_partial`, `C77_cylinder_length_refuted`, `C77_infinite_cylinder_partial`, `C77_small_disc_refuted`, `C87_triangle_refuted`, `C92_rectangular_array`, `C92_rectangular_boxes`, `C92_rectangular_refuted`, `C93_linear_tetrahedra`, `C94_tetrahedron_force_winding_refuted`, `C94_warped_hexahedron_refuted`, `C96_plain_shapes`, `C97_corotated_refuted`, `C97_linear_elasticity`, `C97_one_point_refuted`, `C98_linear_elasticity`.
* `ClassicalDedekindReals.sig_forall_dec`, `ClassicalDedekindReals.sig_not_dec`, `Classical_Prop.classic`, `FunctionalExtensionality.functional_extensionality_dep`: `C102_hyperelastic_energy`, `C102_hyperelastic_forces`, `C102_hyperelastic_increments`, `C102_hyperelastic_rest_frame`, `C102_hyperelastic_scene`, `C103_hyperelastic_energy`, `C103_hyperelastic_forces`, `C103_hyperelastic_increments`, `C103_hyperelastic_numbers`, `C103_hyperelastic_numbers_increments`, `C106_follows_partial`, `C106_order_partial`, `C106_origin_refuted`, `C106_rest_partial`, `C106_seam`, `C107_energy`, `C107_inner_nodes`, `C107_remeshing_partial`, `C108_energy`, `C108_forces`, `C108_increments`, `C108_intersections_refuted`, `C108_scene`, `C13_shape_derivative`, `C14_jacobian_is_derivative`, `C17_hexahedra`, `C17_quads`, `C17_segment_linear`, `C17_segment_quadratic`, `C17_tetrahedra_affine`, `C17_tetrahedron_quadratic_error_partial`, `C17_tetrahedron_quadratic_exact_refuted`, `C17_triangle_linear`, `C17_triangle_quadratic`, `C17_weights`, `C19_quad_local_of_world_partial`, `C21_affine_closest_point`, `C21_affine_exact`, `C31_exact_position_refuted`, `C31_interpolate`, `C31_interpolate_positions_partial`, `C31_outside_nodes`, `C31_sound_partial`, `C31_surface_refuted`, `C32_complete`, `C52_first_piola_kirchhoff`, `C52_stress_is_energy_derivative`, `C53_deformation_gradient`, `C53_tangent_is_stress_derivative`, `C53_tangent_symmetric`, `C54_hooke`, `C54_objectivity`, `C54_rest_state`, `C54_rigid_motion`, `C55_energy_after_parameter_change_refuted`, `C55_forces_are_minus_energy_gradient_partial`, `C56_force_increment_partial`, `C56_force_increment_repeated_nodes`, `C56_matrix`, `C56_repeated_node_refuted`, `C57_any_point`, `C57_self_balanced`, `C58_schedule_independent`, `C61_usable`, `C69_forces`, `C69_linearisation_point`, `C82_cells_around`, `C82_cells_around_inside`, `C82_cells_around_upper_side_refuted`, `C82_contains_complete`, `C82_contains_node_refuted`, `C82_contains_sound`, `C82_locate_boundary`, `C82_locate_exact`, `C82_locate_partial`, `C82_monotone`, `C82_node`, `C82_node_between_two_cells_refuted`, `C82_nodes_coincide_refuted`, `C82_nodes_increasing`, `C82_tolerance_refuted`, `C82_upper_side_refuted`, `C83_derivatives`, `C83_interpolate`, `C83_interpolate_node`, `C83_jacobian`, `C83_node_exact`, `C83_nonneg`, `C83_partition`, `C83_shape`, `C83_tetrahedron_nonneg_refuted`, `C84_complete`, `C84_far_refuted`, `C84_local`, `C84_zero_cell_size_refuted`, `C85_box_exact`, `C85_closed`, `C85_closed_box`, `C85_closed_triangle`, `C85_complete`, `C85_defaults`, `C85_sound`, `C85_tetrahedron_refuted`, `C85_zero_tolerance_refuted`, `C86_bad_input_not_converged`, `C86_control`, `C86_genuine_partial`, `C86_infinite_solution_refuted`, `C86_overflow_refuted`, `C86_tolerance_refuted`, `C86_warm_start_refuted`, `C87_parallelepiped_no_miss_partial`, `C87_parallelepiped_segment_partial`, `C87_parallelepiped_triangle_partial`, `C90_assembly_by_script_refuted`, `C90_condition_number_refuted`, `C90_current_stiffness_refuted`, `C90_eigenvalues`, `C90_latest_assembly_init`, `C90_latest_assembly_script`, `C90_latest_assembly_solver`, `C90_questions_have_no_effect`, `C90_same_matrix_as_the_solver`, `C90_simulation_disturbed_refuted`, `C90_translations`, `C93_compressed_refuted`, `C93_held_body_partial`, `C93_kernel`, `C93_linear_elasticity`, `C93_only_rigid_motions_partial`, `C93_parallelepipeds`, `C93_quadratic_hexahedron_refuted`, `C93_rigid_motions`, `C93_semidefinite`, `C94_area`, `C94_hexahedron_force_winding_refuted`, `C94_outward`, `C94_volume`, `C96_barrier`, `C96_energy_formula`, `C96_flattened_refuted`, `C96_held_body_partial`, `C96_held_mirror_refuted`, `C96_mirror_refuted`, `C96_negative_lambda_refuted`, `C96_never_negative`, `C96_only_rigid_motions_partial`, `C96_quadratic_hexahedron_refuted`, `C96_quadratic_tetrahedron_refuted`, `C96_rigid_motions`, `C96_zero_energy`, `C97_boundary`, `C97_curved_hexahedra_refuted`, `C97_curved_tetrahedra_refuted`, `C97_interior_partial`, `C97_straight_edges`, `C98_equilibrium`, `C98_matching_faces_needed`.

<!-- end generated -->

## 4. Findings (behaviour of the code that contradicts the property; each has a `_refuted` theorem)

* C07: points outside the grid within one cell below the anchor are located in cell 0 (truncating cast), and
  related boundary cases (two theorems).
* C08: `cells_around` misses cells for points outside or on the border.
* C09: `cells_enclosing` misses cells when points are outside of the grid.
* C17: the Gauss rule of `Tetrahedron<Quadratic>` is not exact for the degree the element needs.
* C18: the announced number of Gauss nodes differs from the table for two types.
* C19: rectangular quads use the iterative local coordinates: points within 1e-5 of the centre map to the centre.
* C21: the first tolerance is absolute: on an element smaller than 1e-5 an outside point is reported inside.
* C22: at eps = 0 a triangle or a tetrahedron does not contain its own boundary, because the comparison is strict.
* C26: face table of `RectangularHexahedron<Quadratic>` lists nodes that are not on the face.
* C27: `add_domain(domain, name)` accepts a name that is already used; `domain(name)` then returns the first one.
* C28: the search loop of `remove`/`remove_domain` has an empty body: removing any domain but the first, or an
  unknown name from a mesh that is not empty, never returns (for every heap, not only a witness).
* C29: no domain of a copied mesh refers to the copy (the pointer is never initialised), and its elements are read in
  the array owned by the source, so they are gone once the source is destroyed; the domains of a moved mesh still
  refer to the source.
* C31: a point outside of the mesh but within 1e-5 of the first node of a triangle is embedded at this node; on a
  surface mesh in 3D a point away from the surface is projected on it instead of being reported outside.
* C55: the potential energy uses the material parameters of the last force or stiffness computation: after the user
  changes them, the reported energy is the one of the old parameters.
* C41: the searches of `clearRow`/`clearCol`/`clearRowCol` also cover the free room of a matrix that is not compressed:
  after an insertion, the stale index found there can hide the entry, which is not cleared.
* C42: a wrapper made over an existing sparse matrix forgets all of it at the first write, clearing or compression.
* C43: declared symmetric while the transposes of the entries are not stored: `clearRowCol` misses entries (documented use).
* C46: a solve that has nothing to do (the initial guess already solves the system, or the right-hand side is zero or has a
  squared norm below 1e-19) returns false; `solveSystem` then does not store the zero solution, and a Newton step that
  relies on it is declared diverged.  The timer is given 1 iteration in these cases.
* C60: `K()` of the hexahedra is not the matrix added to the system: it reads `Ke.block<3,3>(i, j)` where rows and columns
  3i, 3j are meant, has no block below the diagonal, and is not recomputed when the elements rotate.
* C47: with `newton_iterations` = 1 (the default) the residual is not computed after the iteration.  The residual recorded is
  that of the initial state, and the solve is never reported as converged unless it had nothing to do
  (`C47_single_iteration_refuted`).  An iteration whose total increment has a squared norm below EPSILON is reported as
  diverged, even if it reached equilibrium.
* C48: the reference of the relative criterion is the residual after the first iteration, not the initial one.  A solve whose
  residual grew can be reported as converged, and one whose residual was divided by any factor in the first iteration cannot
  be reported until it is divided again (`C48_reported_refuted`, `C48_not_reported_refuted`, `C48_first_iteration_refuted`).
* C51, C72: the first right-hand side of a backward Euler step is taken at x_n, whereas the matrix is that of x_n + h v.
  With a single iteration (the default) the equation of motion is missed by h K v_n, for any linear system
  (`C51_single_iteration_refuted`), and the energy can grow whatever the step (`C72_single_iteration_refuted`).
* C70: with the corotated option, the stiffness is computed in the world frame but applied to displacements in the frame
  of the element: if the rest frame of an element is not the world frame, the material is no longer the isotropic one
  (a stretch can meet only the shear modulus).
* C71: each `reinit` of the hexahedra appends the quadrature nodes once more: after n of them the forces are n times too
  large.  Switching the option corotated off and initialising again keeps the old rotations: forces appear at rest.
* C63: `reset` empties the nodal forces without restoring them: the next `addForce` reads out of the vector, the next
  incremental step writes out of it, and a constant load (slope 1) is never applied again.
* C64: because of an `else if`, the first node is never compared with the lower corner of the bounding box: the lower
  corner is right exactly when another node attains the minimum; with increasing coordinates it stays at `max()`.  In
  the two dimensional instances the third component is read out of the node.
* C66: the reordering of quadratic hexahedra is right for the order of the repository's own test file (written by an old
  meshio), but VTK's documented order is already the canonical one, so files that follow it are scrambled.
* C67: reading a file without points in dimension 1 or 2 reads the first point (dimension 3 gives an empty mesh).
* C34: `get_gauss_nodes_of_cell` moves the points of a sub-cell once per level although the elements of the sub-cells are
  already given in the coordinates of the cell.  From the second level on the points leave their sub-cells: if the first level
  is entirely divided no point has a coordinate in [-1/2, 1/2] (`C34_second_level_refuted`).  In two dimensions, when the tree
  is cut at the requested level, the points of the two upper sub-cells carry the weight of each other
  (`C34_two_dimensions_cut_refuted`).
* C37: in two dimensions the bits of the third axis of `is_boundary_of_face` are never cleared, so that every undefined region
  is tagged as outside (`C37_two_dimensions_refuted`).  It does not show today, because no 2D surface leaves undefined leaves
  next to boundary ones.
* C39: the counters of `tag_intersected_cells_from_implicit_surface` are an array of three, indexed by the type, and a corner
  where the function is exactly 0 has type Boundary = 4 (`H:111-116`): the increment is out of the array
  (`C39_zero_corner_refuted`, for every grid and function with such a corner).
* C40: the point query throws for a point on a face shared by two cells, even of the same type
  (`C40_shared_face_refuted`), and after a tessellated surface it never answers Inside or Outside, because only the leaves,
  not the array it reads, are tagged (`C40_tessellated_refuted`).
* C73: with an implicit surface in three dimensions the subdivision takes a reference in the array of triangles of cells,
  which is empty unless a tessellated surface was tagged before (`C73_implicit_surface_3D_refuted`).  The arrays are resized
  and not cleared when the grid is created again: cells stay Boundary (`C73_stale_types_refuted`) and triangles of the
  previous surface are read, out of the array if there are fewer triangles now (`C73_stale_triangle_refuted`).
* C74: the legacy static solver compares the *squared* initial residual with the threshold, so that a solve whose residual
  norm is between t and sqrt t does nothing and reports convergence (`C74_first_test_refuted`).  A linear solve that fails at
  the second iteration leaves a null increment, which meets the correction criterion: failure is reported as convergence
  (`C74_failed_solve_refuted`); with a warm start the previous increment is applied a second time
  (`C74_failed_warm_start_refuted`).  With a single iteration nothing is ever reported as converged
  (`C74_single_iteration_refuted`).
* C77: the cylinder ignores its length: it is infinite (`C77_cylinder_length_refuted`).  A cell with all its corners out of the disc is
  Outside even if it contains the disc: on every grid there is a disc that gives no element at all (`C77_small_disc_refuted`).
* C75: the pattern is analysed only when the dimension changes: a new pattern of the same dimension breaks Eigen's rule
  (`C75_new_pattern_refuted`), so does an empty first system (`C75_empty_system_refuted`).  `p_A_is_factorized`, which a comment says
  avoids solving after a failure, is never consulted: a failed analysis or a singular matrix with LU is used all the same
  (`C75_failure_refuted`; LDLT and LLT are protected by Eigen itself).  LDLT and LLT read the lower triangle only: with an
  unsymmetric matrix they succeed and leave the residual of the ignored half (`C75_unsymmetric_refuted`).
* C76: the internal domain refers to the vector of the data `indices` without copying it (the documentation says that it is
  copied).  Setting more indices moves the vector and no element can be read (`C76_moved_indices_refuted`); setting indices of nodes that
  do not exist is refused by the next initialisation, but the elements use them (`C76_rejected_indices_refuted`).
* C78: a := b only enlarges a: if a is longer than b it keeps its end and is not equal to b (`C78_longer_refuted`).
- **C80 (grid sizes and `int` loops).** The 64-bit numbering is exact up to 2^63 items and false for every larger grid (`C80_too_large_refuted`), which is only of theoretical interest. The loops of `FictitiousGrid::subdivide_intersected_cells` (FictitiousGrid.cpp:147, 239) and of the stiffness assembly (HyperelasticForcefield.inl:434) convert the count to `int`: with 2^31 to 2^32-1 cells the loop body is never executed and no message is printed (`C80_int_loop_refuted`); a 1600x1600x1000 grid is enough.
- **C81 (set-up of a force field).** (a) With several usable topologies in the node and `printLog` on, `CaribouForcefield::init` dereferences a null pointer in its message (CaribouForcefield.inl:79-80 follows the branch that did not set the link): `C81_several_refuted`, for every such scene. (b) The same scene with and without the `template` attribute gives two results: the first topology, or none (`C81_name_changes_result_refuted`). (c) Without `template` and `topology`, a node with tetrahedra and hexahedra makes both instantiations accept; which one is made depends on the order of registration (`C81_by_context_unique_refuted`). (d) From a SOFA mesh the reference configuration is the *current* position of the state, from a CaribouTopology it is its rest position: in every scene not at rest at initialisation they differ (`C81_reference_refuted`). (e) Without a mechanical state, the base class warns and returns, then `HyperelasticForcefield::init` dereferences it (`C81_no_state_refuted`).
- **C82 (grid queries on doubles).** (a) `EPSILON` = 1e-19 is below the spacing of the doubles: 1 + EPSILON is 1, and from 1/2 on the only doubles `cells_around` finds close to an integer are the integers (`C82_tolerance_refuted`, for every double). So a node computed by the grid itself may have one cell around it instead of two (node 3 of the unit interval in ten cells, `C82_node_between_two_cells_refuted`), and a grid may not contain its own last node (anchor 1, size 0.1: `C82_contains_node_refuted`). (b) On the upper side of a grid the rounded coordinate may exceed the number of cells; `cells_around` then returns a cell of the *opposite* side, since only the flat index is tested (unit square in 49 x 49 cells, point (1, 5/16) gets cell (0, 16): `C82_cells_around_upper_side_refuted`). (c) `cell_index_containing` without the test for the boundary returns a cell out of the grid for points strictly inside it (`C82_upper_side_refuted`). (d) If the cells are small compared with the anchor, neighbouring nodes are the same point (`C82_nodes_coincide_refuted`).
- **C83 (shape functions on doubles).** The computed shape functions of the linear segment, triangle, quad and hexahedron are never negative on the reference element, those of the linear tetrahedron can be: at u = 3 2^-55, v = 3/4, w = 1/4 - 3 2^-55, whose sum is exactly 1, `1 - u - v - w` is computed as -2^-55 (`C83_tetrahedron_nonneg_refuted`). A test of the sign without tolerance would find this point of the tetrahedron outside.
- **C84 (spatial hash on machine numbers).** Completeness holds without tolerance. But the integers overflow far from the origin: 2^37 cells away the hash function does (`73856093 * coordinates[0]`), and two keys 2^32 cells apart cannot be compared, because their equality test squares the difference; with wrap-around the keys 0 and 2^32 would be equal (`C84_far_refuted`). A cell size of zero is accepted by the constructor and makes every query undefined (`C84_zero_cell_size_refuted`).
- **C85 (local containment on doubles).** The default tolerances are large enough. A caller who passes a tolerance of 2^-55 or less has points of the closed tetrahedron refused, because `1 - u - v - w` rounds below zero (`C85_tetrahedron_refuted`); with a tolerance of 0 the boundary of triangles and tetrahedra is refused while that of the other elements is accepted (`C85_zero_tolerance_refuted`).
- **C86 (conjugate gradient on doubles).** The residual that is tested is updated by recurrence and never recomputed from x. With a far initial guess (the previous content of the solution vector is the initial guess, `EigenSolver.inl:171-187`) `3 x = 1` from `10^20` is reported as converged with the tolerance 1e-5 for x = 5461.3, whose residual is over 16000 times the right-hand side (`C86_warm_start_refuted`). Likewise a tolerance below the precision is reported as reached (`C86_tolerance_refuted`), `2^-600 x = 2^500` is reported as converged with x infinite (`C86_infinite_solution_refuted`), and a right-hand side of norm 2^600 is never solved, because its squared norm overflows (`C86_overflow_refuted`).
- **C56 (elements that repeat a node).** A hexahedron may have an edge collapsed to one node (a wedge) and still be regular at its Gauss points. The half-stored assembly then writes the block of the two copies of the node on the diagonal, where `addDForce`, `addKToMatrix` and `K()` count its diagonal coefficients once instead of twice (`HyperelasticForcefield.inl:514-533` and `:198-209`). `C56_force_increment_repeated_nodes` gives the exact error for every mesh; `C56_repeated_node_refuted` shows a wedge at rest whose stiffness does not give the derivative of the forces in a translation.
- **C87 (intersection of a general hexahedron).** The test replaces the segment by the straight segment between the local coordinates of its ends, which is another curve unless the element is a parallelepiped. On a frustum of half widths 1/2 and 3/2, whose jacobian is positive everywhere, it reports a segment that does not meet the element (`C87_false_positive_refuted`) and misses one that goes through it (`C87_false_negative_refuted`); likewise for triangles (`C87_triangle_refuted`). A segment with an end less than 1e-5 away from the centre is always reported, so that elements of that size are wrongly reported too (`C87_small_element_refuted`).
- **C88 (objects of a Python script).** `add_domain`, `domain`, `mesh` and `embed` return references or objects with plain pointers and have no `keep_alive` clause. A script that keeps a domain or a container but no variable of the mesh (`m = Mesh(x); d = m.add_domain(...); del m; d.number_of_elements()`, or a function that returns the domain of a local mesh) reads destroyed memory: the first such use is undefined in every script (`C88_orphan_use_refuted`, `C88_deleted_mesh_refuted`).
- **C89 (constraints and mapped stiffness).** `EigenSolver::assemble`, `StaticODESolver` and `BackwardEulerODESolver` apply the projective constraints to the global matrix before `computeGlobalMatrix` adds the stiffness of the mapped states. The rows of a fixed unknown of a body that carries a mapped state with matrices are therefore not those of the identity, and the increment of the static solver is added to the positions without projection: with a right-hand side that is zero there, every solution moves the fixed unknown (`C89_mapped_moves_fixed_refuted`, for a family of scenes). Bodies without such states are fine (`C89_fixed_partial`).
- **C90 (condition number, stiffness read by a script).** `cond()` returns smallest over largest eigenvalue, the inverse of the condition number (`C90_inverse_refuted`). Moreover the translations are always in the kernel of the stiffness, so 0 is always an eigenvalue, the matrix has no condition number, and what is returned is 0 / 0 or not positive for every mesh and history (`C90_condition_number_refuted`). `HexahedronElasticForce::cond` has the same text (not part of C90). `K()` does not assemble: after new parameters and a computation of the forces it is still the old matrix (`C90_current_stiffness_refuted`; the comment of `K()` says so, those of `eigenvalues()` and `cond()` do not). `assemble_stiffness(x)` called by a script replaces the stiffness of the simulation: until the next computation of the forces `addDForce` and `addKToMatrix` use the positions of the script (`C90_assembly_by_script_refuted`, `C90_simulation_disturbed_refuted`).
- **C91 (new dense matrices and vectors).** No contradiction found. `EigenMatrix(rows, cols)` and `EigenVector(n)` leave the memory uninitialised: unlike the sparse wrapper, a new dense matrix or vector is not zero and adding to it gives an unknown number (`C91_new_unknown`, `C91_vector_new_unknown`). `NewtonRaphsonSolver` clears what `create_new_vector` gives it before use (`C91_cleared`); the documentation of `create_new_matrix` / `create_new_vector` does not say that one must.
- **C92 (rectangular hexahedra from separate nodes).** `RectangularHexahedron(n0, ..., n7)` and the overload with twenty nodes return a `Hexahedron`: `RectangularHexahedron.cpp` lines 105-107 and 125 construct the wrong type, while the same nodes in one array give a `RectangularHexahedron` (`C92_rectangular_refuted`, for all nodes; `C92_rectangular_array`). `Triangle(Dimension._1D)` and `Quad(Dimension._1D)`, with or without an order, return an element in three dimensions instead of failing (`C92_dimension_refuted`). `Segment` has no overload with nodes and an order (`C92_mixed`). Everything else holds for all positional arguments.
- **C93 (zero-energy modes of quadratic hexahedra).** `Hexahedron<Quadratic>` is integrated with the eight points of the linear hexahedron. These give 48 strains for 60 degrees of freedom, so that a single element of any shape, with any material and any three nodes held, has a stiffness matrix that annihilates a motion that is not zero (`C93_quadratic_hexahedron_refuted`): the matrix is singular and the factorizations break down or return arbitrary displacements. Away from rest, definiteness is lost for both laws once a body is compressed enough (`C93_compressed_refuted`), which is expected of these laws and is why a Newton step can meet a matrix a Cholesky factorization or a conjugate gradient refuses.
- **C94 (drawings of the co-rotational force fields).** `TetrahedronElasticForce::draw` shrinks a tetrahedron with the weights 0.666667 and 0.125 * 0.666667 * 4, which add up to 1.0000005: the drawing is the tetrahedron shrunk by a third and then scaled from the origin by 1.0000005, so that a translation t of the body moves the drawing by 1.0000005 t (`C94_tetrahedron_force_drift_refuted`); far from the origin the cells are drawn beside the body. In this force field and in `HexahedronElasticForce` the triangles are not turned to the same side (`C94_tetrahedron_force_winding_refuted`, `C94_hexahedron_force_winding_refuted`), which hides half of them when back faces are culled. `HexahedronElasticForce::draw` draws every triangle a second time in grey at the same place, as a leftover of ignored elements (`C94_hexahedron_force_twice_refuted`).
- **C94 (drawings of curved elements).** Quadratic elements are drawn with their corners only: with a scale of one, no motion of the middle nodes is ever seen (`C94_curved_sides_refuted`). The two flat triangles of each face of a warped linear hexahedron do not enclose its volume (`C94_warped_hexahedron_refuted`).
- **C95 (methods hidden in Python).** `BaseGrid` binds node(coordinates) and cell_coordinates_at(point), `BaseMultidimensionalGrid` binds node(index) and cell_coordinates_at(index); since a chain of overloads of pybind11 does not continue in the base class, the first two raise a TypeError on every grid (`C95_hidden_refuted`); they work as `BaseGrid3D.node(g, c)` (`C95_through_the_base`). `Grid2D.cell_at` raises a TypeError on every grid because RectangularQuad is bound nowhere (`C95_cell_at_2d_refuted`), and `Grid3D.cell_at` until Caribou.Geometry has been imported (`C95_cell_at_3d`). One-dimensional grids cannot be made (`C95_constructors`).
- **C95 (arguments of grids not checked).** Fractions in coordinates and in numbers of cells are dropped, a negative number of cells -k becomes 2^64 - k (`C95_coordinates_rounded_refuted`, `C95_subdivisions_rounded_refuted`), node(i) with i beyond the last node answers a point outside of the grid (`C95_outside_refuted`), and a grid made with zero cells along its first axis ends the process when asked for a cell by index (`C95_empty_refuted`).
- **C95 (hash grids in Python).** The classes bound as Hexahedron8HashGrid and Hexahedron20HashGrid have each other's names: each refuses the elements that it is named after (`C95_hash_names_refuted`). The function HashGrid returns None, without an exception, for any object that is not one of the six classes (`C95_hash_none_refuted`).
- **C96 (energy blind to deformations).** A quadratic hexahedron has eight integration points, not enough for its twenty nodes: every quadratic box can be twisted by any angle, continuously from rest, with no energy and no force (`C96_quadratic_hexahedron_refuted`), whatever the material. A straight quadratic tetrahedron can have a second rest state, far from the first, that inverts no integration point (`C96_quadratic_tetrahedron_refuted`).
- **C96 (laws without barrier).** With the Saint Venant-Kirchhoff law a body crushed flat has a finite energy and its mirror image has none, and no force (`C96_flattened_refuted`, `C96_mirror_refuted`): a tetrahedron held by three nodes can be left inside out (`C96_held_mirror_refuted`). The Neo-Hookean law has a barrier (`C96_barrier`) but with a negative Poisson ratio, which the component accepts, its energy has no lower bound (`C96_negative_lambda_refuted`).
- **C97 (patch test).** Three of the element types fail the patch test. The four integration points of a quadratic tetrahedron do not integrate the force exactly when its edges are bent: a uniform stretch leaves a force on a node in the middle of the body (`C97_curved_tetrahedra_refuted`). The eight integration points of a quadratic hexahedron are exact for straight edges (`C97_straight_edges`), not for bent ones (`C97_curved_hexahedra_refuted`). `HexahedronElasticForce` with one integration point fails as soon as the hexahedra are not parallelepipeds (`C97_one_point_refuted`). With the corotational option, which is on by default, even linear tetrahedra fail, because each element applies its stiffness in axes of its own (`C97_corotated_refuted`, a consequence of C70).
- **C98 (equilibrium with tractions).** Holds as stated. The elements of the traction must be the faces of the elements of the body: two triangles laid on the face of a hexahedron give its corners other shares of the same total force, and the body is then not in equilibrium under a uniform stress (`C98_matching_faces_needed`).
- **C99 (set-up of a barycentric mapping).** Template, absolute links and scenes with topologies of one type behave as described, and right after an initialisation that is not cut short the mapping is the one of C61. Refuted parts: without template, a link is looked up from the root of the scene although the link itself is resolved from the node of the mapping, so `@../mesh` is always refused and `@mesh` takes its type from an object of the root that happens to have this name, after which another topology silently replaces the linked one (`C99_relative_link_refuted`, `C99_local_link_refuted`); with topologies of several types above the mapping, the order of registration of the instantiations decides, not the distance (`C99_nearest_refuted`); the number of nodes of the parent mechanical object is not compared with the nodes of the elements, so that the matrix may be written out of bounds (`C99_sizes_refuted`); when the topology is initialised again, the mapping keeps a pointer to its destroyed domain and reads it at the next `apply`, while `applyJT` goes on with the old matrix (`C99_stale_refuted`).
- **C100 (distribution of volume ratios).** Holds with an implicit surface, with at most 10^d + 1 entries (the documentation says 100 for two decimals). Refuted with a tessellated surface: the types that the loop reads are set only for the cells that a triangle meets, the others stay undefined and are skipped, so that no cell inside or outside of the surface is in the table (`C100_tessellated_refuted`); the cells that a triangle meets are listed correctly.
- **C101 (simulations).** Holds for every history with the strategy ALWAYS, with the default strategy BEGINNING_OF_THE_TIME_STEP when the increments keep the stored positions of the matrix, and with BEGINNING_OF_THE_SIMULATION when all matrices have the same positions and the ODE solver is initialised or reset after each change of its link. Otherwise a decomposition is used without an analysis or with that of other positions, which Eigen does not allow: always with NEVER (`C101_never_refuted`); when an increment changes the positions within a step (`C101_within_step_refuted`); with BEGINNING_OF_THE_SIMULATION when they change between steps, when the link changes, or when another ODE solver uses the same linear solver (`C101_between_steps_refuted`, `C101_new_link_refuted`, `C101_shared_refuted`). A step without a linear solver leaves the result of the previous step: it still says that it converged (`C101_nothing_solved_refuted`).
- **C102 (objectivity).** Holds for the hyperelastic force fields, for forces, energy, increments and descriptions in another frame, and for the forces and increments of the corotational force fields with `corotated` on, after any history. With the option off only translations go unnoticed: every rotation of the rest positions other than the identity creates forces, for every admissible material and every body of positively oriented elements (`C102_without_option_refuted`). With the option on, the same body described in a frame turned by a quarter turn has other force increments (half the work along an edge, `C102_corotational_scene_refuted`): the stiffness matrix is computed in the world frame and used in the frame of the element (see C70).
- **C103 (numbering).** Holds for the hyperelastic force fields for every order, listing (mirrors included, because the weight uses |det J|) and numbering; for the corotational force fields for every order of the elements and numbering of the nodes, corotation on or off. The listing of the nodes of an element does matter there. With corotation off, listings that are turned give the same forces, but a mirrored listing reverses every force (`C103_mirrored_listing_refuted`): the weight is the signed determinant, and nothing refuses a negative one. With corotation on, a turned listing already changes the stiffness (`C103_corotational_listing_refuted`): a cyclic listing of three corners of the unit tetrahedron halves the work of a stretch along an edge, because the frame of the element follows its first edges while the stiffness is computed in the world frame (see C70).
- **C104 (momentum).** The momentum is exact at every step (`C104_step`, `C104_isolated`). The motion is not: when the residual at the beginning of a step is at most `absolute_residual_tolerance_threshold` (1e-15 by default) the solver does no iteration, and a step without iteration does not move the body, since the positions are only updated by an iteration. A body in free flight (no force, uniform velocity, undeformed) is declared "already in equilibrium" and stays where it is, with its velocity, at every step (`C104_free_flight_refuted`).
- **C105 (surface loads).** No defect found: the whole state of the force field (forces, total load, counters) is the same for every description, or turns with the frame, after any history of events without reset (after a reset, see C63).
- **C106 (mapped nodes near a local origin).** A mapped node inside an element at less than 1e-5 of the first node of a triangle (of the local origin of an element in general) is attached to this node: its rest position is not reproduced, and when the parent is scaled by a the error is a times the initial one (`C106_origin_refuted`; same cause as C31). The resultant, the moment and the affine motions are exact even then, about the position the mapping gives to the node.
- C108: `Hexahedron_intersects_segment` is not free of units. The search for local coordinates accepts the centre of the element within an absolute 1e-5, so a cube of 2e-7 meets a segment three sizes away, and no longer does so when both are given in a unit 1e7 times smaller (C108_intersections_refuted; the same cause as C87_small_element_refuted).
- C108: `NewtonRaphsonSolver::solve` reports divergence when the squared norm of the displacement since the beginning of the call is below `EPSILON`, an absolute constant. A spring that is solved in one unit of length is said to diverge in a larger unit (C108_newton_refuted). Above that threshold the solver does not depend on the units (C108_newton_partial).

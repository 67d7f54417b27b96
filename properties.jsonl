{"id": "C01", "title": "Grid numbering is a bijection", "statement": "On a regular grid, the flat index and the integer coordinates of a cell determine each other: every valid cell index decodes to coordinates inside the subdivision box, every coordinate inside the box encodes to an index in [0, number_of_cells()), and encode/decode are mutually inverse. The same holds for nodes with number_of_nodes().", "quantifier": "every dimension 1..3, every positive subdivision vector, every index and every coordinate", "why_tests_cant": "the claim ranges over unboundedly many subdivision vectors and indices", "anchors": ["src/Caribou/Topology/Grid/Internal/BaseMultidimensionalGrid.h: cell_index_at, cell_coordinates_at, node_index_at, node_coordinates_at", "src/Caribou/Topology/Grid/Internal/BaseUnidimensionalGrid.h", "src/Caribou/Topology/Grid/Internal/BaseGrid.h: number_of_cells, number_of_nodes"]}
{"id": "C02", "title": "Cells list their own corners in canonical order", "statement": "node_indices_of(cell) returns valid, pairwise distinct node indices, and the k-th one is the index of the lattice node lying at the k-th canonical corner (counter-clockwise in a slice, lower slice first) of that cell.", "quantifier": "every dimension 1..3, every subdivision vector, every cell", "why_tests_cant": "infinite family of grids; an off-by-one on a row stride is invisible on square test grids", "anchors": ["src/Caribou/Topology/Grid/Grid.h: node_indices_of"]}
{"id": "C03", "title": "Grids are conforming meshes", "statement": "Two cells of a grid list the same node index if and only if those two corners are the same point of the lattice; hence elements built from the grid share exactly the nodes they geometrically share.", "quantifier": "every grid of dimension 1..3 and every pair of (cell, corner)", "why_tests_cant": "quantifies over all pairs of cells of all grids", "anchors": ["src/Caribou/Topology/Grid/Grid.h: node_indices_of", "src/Caribou/Topology/Grid/Internal/BaseMultidimensionalGrid.h: node_index_at"]}
{"id": "C04", "title": "Edge enumeration is complete and duplicate free", "statement": "For i in [0, number_of_edges()), edge(i) enumerates exactly the pairs of lattice nodes one step apart along one axis, each exactly once.", "quantifier": "every 2D and 3D subdivision vector and every edge index", "why_tests_cant": "needs a bijection between an index interval and a geometric set for all sizes", "anchors": ["src/Caribou/Topology/Grid/Grid.h: number_of_edges, edge"]}
{"id": "C05", "title": "Face enumeration is complete and duplicate free", "statement": "For i in [0, number_of_faces()), face(i) of a 3D grid enumerates exactly the axis-aligned unit squares of the lattice, each exactly once.", "quantifier": "every 3D subdivision vector and every face index", "why_tests_cant": "needs a bijection between an index interval and a geometric set for all sizes", "anchors": ["src/Caribou/Topology/Grid/Grid.h: number_of_faces, face"]}
{"id": "C06", "title": "Cell geometry agrees with node positions", "statement": "The element returned by cell_at(i) has as its k-th node exactly the position node(node_indices_of(i)[k]), and neighbouring cells tile the grid box without gap or overlap of interiors.", "quantifier": "every anchor, every positive size, every subdivision vector, every cell", "why_tests_cant": "real-valued anchors and sizes, all cells", "anchors": ["src/Caribou/Topology/Grid/Grid.h: cell_at", "src/Caribou/Topology/Grid/Internal/BaseGrid.h: node, H, size"]}
{"id": "C07", "title": "Point location in a grid", "statement": "For every point inside the grid box (boundary included), cell_index_containing with the boundary test enabled returns a cell of the grid whose closed box contains the point; without the test it returns the unique half-open cell containing the point, for every point not on an upper side of the box.", "quantifier": "every grid and every point of its closed box", "why_tests_cant": "continuum of points; boundary handling depends on exact position", "anchors": ["src/Caribou/Topology/Grid/Internal/BaseGrid.h: cell_coordinates_at, cell_index_containing, contains"]}
{"id": "C08", "title": "cells_around returns exactly the cells touching a point", "statement": "cells_around(p) returns exactly the grid cells whose closed box contains p, and nothing for a point outside of the grid.", "quantifier": "every grid of dimension 1..3 and every point of space", "why_tests_cant": "continuum of points, including those outside the box where only the flattened index is checked", "anchors": ["src/Caribou/Topology/Grid/Internal/BaseGrid.h: cells_around"]}
{"id": "C09", "title": "cells_enclosing covers the bounding box", "statement": "cells_enclosing(points) returns a set of valid cells containing every grid cell that meets the bounding box of the points (clipped to the grid).", "quantifier": "every grid and every finite list of points", "why_tests_cant": "arbitrary number and position of points", "anchors": ["src/Caribou/Topology/Grid/Internal/BaseGrid.h: cells_enclosing"]}
{"id": "C10", "title": "Spatial hash completeness", "statement": "After any sequence of additions, querying a HashGrid at a point returns every datum that was added with a bounding box containing this point.", "quantifier": "every history of add, every positive cell size, every query point (negative coordinates and cell boundaries included)", "why_tests_cant": "arbitrary histories and a continuum of query points", "anchors": ["src/Caribou/Topology/HashGrid.h: add, get"]}
{"id": "C11", "title": "Partition of unity", "statement": "For every element type the shape function values at any local point sum to 1 and, for every direction, the derivatives sum to 0.", "quantifier": "every element type, every local coordinate (inside or outside of the element)", "why_tests_cant": "polynomial identity over the reals: sampling does not settle it", "anchors": ["src/Caribou/Geometry/{Segment,Triangle,Quad,Tetrahedron,Hexahedron,RectangularQuad,RectangularHexahedron}.h: get_L, get_dL"]}
{"id": "C12", "title": "Nodal interpolation (Kronecker delta)", "statement": "The i-th shape function is 1 at the i-th canonical node and 0 at every other node; hence world_coordinates at a canonical node returns that node, for any node positions.", "quantifier": "every element type, every node, every placement of the nodes", "why_tests_cant": "node positions are arbitrary reals", "anchors": ["src/Caribou/Geometry/*.h: get_L, canonical_nodes", "src/Caribou/Geometry/Element.h: world_coordinates, interpolate"]}
{"id": "C13", "title": "Shape derivatives are derivatives", "statement": "Every entry of dL(xi) is the partial derivative of the corresponding shape function with respect to the corresponding local coordinate.", "quantifier": "every element type, node, direction and local coordinate", "why_tests_cant": "finite differences on samples only approximate an analytic identity", "anchors": ["src/Caribou/Geometry/*.h: get_L, get_dL"]}
{"id": "C14", "title": "Jacobian is the derivative of the world map", "statement": "jacobian(xi) is the matrix of partial derivatives of world_coordinates at xi.", "quantifier": "every element, every node placement, every local coordinate", "why_tests_cant": "analytic statement over reals", "anchors": ["src/Caribou/Geometry/Element.h: jacobian, world_coordinates"]}
{"id": "C15", "title": "Affine fields are reproduced exactly", "statement": "Interpolating nodal values sampled from any affine field gives back this affine field at every local point, for every element geometry.", "quantifier": "every element type, node placement, affine field and local coordinate", "why_tests_cant": "infinite family of fields and placements", "anchors": ["src/Caribou/Geometry/Element.h: interpolate"]}
{"id": "C16", "title": "Quadratic elements reproduce quadratic fields", "statement": "On its canonical placement a quadratic element interpolates exactly every polynomial field of degree at most two, and a linear tensor-product element every multilinear field.", "quantifier": "every such polynomial and every local coordinate", "why_tests_cant": "infinite family of polynomials", "anchors": ["src/Caribou/Geometry/*.h (Quadratic variants)"]}
{"id": "C17", "title": "Gauss quadrature exactness", "statement": "The Gauss nodes and weights of each element type integrate every polynomial of the announced degree exactly over the reference domain; in particular the weights sum to the reference measure and all nodes are interior.", "quantifier": "every polynomial up to the degree of exactness, every element type", "why_tests_cant": "infinite family of polynomials, irrational nodes", "anchors": ["src/Caribou/Geometry/*.h: get_gauss_nodes"]}
{"id": "C18", "title": "Gauss node count matches the announced count", "statement": "The number of Gauss nodes an element returns is the number its type announces.", "quantifier": "every element type", "why_tests_cant": "each type is one case, but every client array sized by the announced count relies on it", "anchors": ["src/Caribou/Geometry/*.h: traits NumberOfGaussNodesAtCompileTime, get_gauss_nodes"]}
{"id": "C19", "title": "Rectangular elements: world and local coordinates are inverse", "statement": "For a rectangular quad or hexahedron with non-zero side lengths and an orthonormal frame, local_coordinates(world_coordinates(xi)) = xi and world_coordinates(local_coordinates(x)) = x.", "quantifier": "every center, every non-zero size, every orthonormal frame, every point", "why_tests_cant": "continuum of frames and points", "anchors": ["src/Caribou/Geometry/BaseRectangularHexahedron.h", "src/Caribou/Geometry/BaseRectangularQuad.h"]}
{"id": "C20", "title": "Rectangular elements agree with their nodal description", "statement": "The world coordinates of a rectangular element computed from its frame equal the interpolation of its nodes with its shape functions, and its jacobian is constant with determinant the product of the half sizes.", "quantifier": "every center, size, frame and local coordinate", "why_tests_cant": "continuum", "anchors": ["src/Caribou/Geometry/RectangularHexahedron.h: get_node, get_L", "src/Caribou/Geometry/BaseRectangularHexahedron.h: get_world_coordinates"]}
{"id": "C21", "title": "Local coordinates by Newton iteration are right when it says so", "statement": "Element::local_coordinates returns the exact pre-image for affine elements whenever it performs one Newton step, and in general the returned point's world position is within the residual tolerance when the residual test stopped the loop; a point that is not the centre is not silently mapped to the centre.", "quantifier": "every non degenerate element, every query point", "why_tests_cant": "continuum of elements and points", "anchors": ["src/Caribou/Geometry/Element.h: local_coordinates"]}
{"id": "C22", "title": "Containment test is the closed reference domain", "statement": "contains_local(xi, eps) holds exactly on the reference domain enlarged by eps; with eps=0 it is exactly the set where the element's linear shape functions are all non-negative (simplices) or all coordinates are in [-1,1] (tensor product elements).", "quantifier": "every local coordinate and every eps >= 0", "why_tests_cant": "continuum", "anchors": ["src/Caribou/Geometry/Base*.h: get_contains_local"]}
{"id": "C23", "title": "Segment / box intersection test is exact", "statement": "With eps = 0 the segment-hexahedron test on a rectangular hexahedron returns true if and only if some point of the closed segment lies in the closed box.", "quantifier": "every box (center, size, frame) and every pair of end points", "why_tests_cant": "continuum of segments with degenerate and grazing cases", "anchors": ["src/Caribou/Geometry/BaseRectangularHexahedron.h: intersects(segment), intersects_local_segment"]}
{"id": "C24", "title": "Triangle / box intersection test", "statement": "With eps = 0, if a triangle and a rectangular hexahedron share a point then the test returns true, and if the test returns true then they share a point.", "quantifier": "every box and every triangle", "why_tests_cant": "continuum of triangles with degenerate and grazing cases", "anchors": ["src/Caribou/Geometry/BaseRectangularHexahedron.h: intersects(triangle), intersects_local_polygon"]}
{"id": "C25", "title": "Quadratic elements built from linear ones keep the geometry", "statement": "Constructing a quadratic element from a linear one gives an element with the same world_coordinates at every local point.", "quantifier": "every linear element and every local coordinate", "why_tests_cant": "polynomial identity over reals", "anchors": ["src/Caribou/Geometry/{Segment,Triangle,Quad,Tetrahedron,Hexahedron}.h: constructors from linear elements"]}
{"id": "C26", "title": "Face and edge tables describe the boundary", "statement": "Each listed face consists of exactly the nodes lying on one side of the reference domain, the listed faces together are all the sides, each is oriented outward, and the trace on a face of the shape functions depends only on that face's nodes (inter-element conformity).", "quantifier": "every element type, face, and point of the face", "why_tests_cant": "needs polynomial identities on faces, for every point", "anchors": ["src/Caribou/Geometry/{Tetrahedron,Hexahedron,RectangularHexahedron}.h: get_boundary_elements_nodes, edges"]}
{"id": "C27", "title": "Mesh domain bookkeeping", "statement": "After any sequence of domain additions and removals, domain(name) returns the domain that was added under this name and not removed since, number_of_domains counts them, and adding under a used name is rejected leaving the mesh unchanged.", "quantifier": "every history of add / remove / lookup", "why_tests_cant": "arbitrary histories", "anchors": ["src/Caribou/Topology/Mesh.h: add_domain, remove_domain, remove, domain, domains"]}
{"id": "C28", "title": "Removal terminates", "statement": "Mesh::remove(domain) and remove_domain(name) terminate on every mesh, and remove exactly the designated domain.", "quantifier": "every mesh and every argument", "why_tests_cant": "termination for all list contents", "anchors": ["src/Caribou/Topology/Mesh.h: remove_domain, remove"]}
{"id": "C29", "title": "Copying or moving a mesh keeps its domains usable", "statement": "After copying or moving a mesh, each of its domains refers to the mesh that owns it, and its elements are those of the source mesh, independently of later changes or destruction of the source.", "quantifier": "every history of construct / copy / move / destroy", "why_tests_cant": "arbitrary histories; lifetime errors are not observable by a passing test", "anchors": ["src/Caribou/Topology/Mesh.h: copy/move constructors, operator=", "src/Caribou/Topology/Domain.h: copy constructor, clone, attach_to"]}
{"id": "C30", "title": "Domain connectivity is what was given", "statement": "element_indices(e)[k] returns the k-th node index of element e as given by the caller, for any storage order and any inner/outer strides, whether the buffer is copied or external.", "quantifier": "every connectivity table, every element, every stride pair", "why_tests_cant": "arbitrary tables and strides", "anchors": ["src/Caribou/Topology/Domain.h: constructors, element_indices"]}
{"id": "C31", "title": "Barycentric container is sound", "statement": "Each embedded point is either reported as outside or is given an element and local coordinates contained in this element whose world position is the point; interpolating the mesh node positions returns the embedded points that are not outside.", "quantifier": "every mesh of affine elements, every embedded point set", "why_tests_cant": "arbitrary meshes and points", "anchors": ["src/Caribou/Topology/BarycentricContainer.h: barycentric_point, set_embedded_points, interpolate"]}
{"id": "C32", "title": "Barycentric container is complete", "statement": "A point lying in some element of the domain is never reported as outside.", "quantifier": "every mesh of affine elements, every point of one of its elements", "why_tests_cant": "depends on the interplay of a hash grid cell size, bounding boxes and containment for every point", "anchors": ["src/Caribou/Topology/BarycentricContainer.h: constructor, closest_elements, barycentric_point", "src/Caribou/Topology/HashGrid.h"]}
{"id": "C33", "title": "Sub-cell weights partition the cell", "statement": "At any level of subdivision of a cell of the fictitious grid, the weights of its leaf sub-cells sum to 1, and the weights of its quadrature points at any requested level sum to the volume of the cell times its retained fraction.", "quantifier": "every subdivision tree of every depth, every requested level", "why_tests_cant": "unbounded trees", "anchors": ["src/SofaCaribou/Topology/FictitiousGrid.inl: subdivide, get_cell_weight, get_gauss_nodes_of_cell"]}
{"id": "C34", "title": "Quadrature points lie in their own sub-cell", "statement": "Each quadrature point reported for a cell of the fictitious grid lies inside the sub-cell it represents.", "quantifier": "every subdivision tree and requested level", "why_tests_cant": "unbounded trees; shallow trees hide the error", "anchors": ["src/SofaCaribou/Topology/FictitiousGrid.inl: get_gauss_nodes_of_cell, get_subcells_elements"]}
{"id": "C35", "title": "Neighbour search is exact and symmetric", "statement": "The neighbours found for a leaf sub-cell across one of its sides are exactly the leaf sub-cells having a common face portion with it on that side (none outside the grid), and the relation is symmetric.", "quantifier": "every grid, every subdivision forest, every leaf, axis and direction", "why_tests_cant": "unbounded unbalanced trees", "anchors": ["src/SofaCaribou/Topology/FictitiousGrid.inl: get_neighbors"]}
{"id": "C36", "title": "Regions are the connected components", "statement": "The regions computed on the fictitious grid partition its leaf sub-cells into the connected components of the same-type neighbour relation; in particular the internal consistency error can never be raised.", "quantifier": "every symmetric neighbour relation and every type labelling", "why_tests_cant": "arbitrary graphs", "anchors": ["src/SofaCaribou/Topology/FictitiousGrid.inl: create_regions_from_same_type_cells, validate_grid"]}
{"id": "C37", "title": "Outside means connected to the border", "statement": "After tagging, an undefined leaf sub-cell is Outside if and only if it is connected through undefined sub-cells to the border of the grid, and Inside otherwise.", "quantifier": "every grid of dimension 2 or 3 and every boundary labelling", "why_tests_cant": "arbitrary labellings", "anchors": ["src/SofaCaribou/Topology/FictitiousGrid.cpp: tag_outside_cells, tag_inside_cells"]}
{"id": "C38", "title": "Sparse and full numbering agree", "statement": "The sparse grid keeps exactly the cells that are not Outside and the nodes they use; the sparse to full and full to sparse maps are mutually inverse and a sparse element lists the nodes of the full cell it stands for.", "quantifier": "every grid and every type labelling", "why_tests_cant": "arbitrary labellings and sizes", "anchors": ["src/SofaCaribou/Topology/FictitiousGrid.inl: create_sparse_grid"]}
{"id": "C39", "title": "Iso-surface classification is memory safe and correct", "statement": "Classifying a cell from the sign of an implicit function at its corners only touches the counters it owns and gives Inside/Outside/Boundary as the corner values dictate.", "quantifier": "every assignment of values (zero included) to the corners", "why_tests_cant": "zero values on a corner form a measure-zero set never hit by random tests", "anchors": ["src/SofaCaribou/Topology/FictitiousGrid.inl: tag_intersected_cells_from_implicit_surface"]}
{"id": "C40", "title": "Point type query", "statement": "get_type_at(p) returns the type of the cell containing p, also on faces shared by cells of equal type.", "quantifier": "every labelled grid and point", "why_tests_cant": "measure-zero set of points and all labellings", "anchors": ["src/SofaCaribou/Topology/FictitiousGrid.inl: get_type_at"]}
{"id": "C41", "title": "Matrix wrapper refines a dense matrix", "statement": "After any sequence of resize/clear/set/add/clearRow/clearCol/clearRowCol/compress, reading the compressed sparse wrapper gives the same entries as applying the same operations to a dense matrix of reals.", "quantifier": "every history of operations on valid indices", "why_tests_cant": "arbitrary histories mixing deferred triplets and in-place updates", "anchors": ["src/SofaCaribou/Algebra/EigenMatrix.h"]}
{"id": "C42", "title": "Wrapping an existing matrix does not lose it", "statement": "Writing one entry through a wrapper built over an existing non-empty sparse matrix changes only this entry.", "quantifier": "every matrix and every write", "why_tests_cant": "depends on hidden initialisation state", "anchors": ["src/SofaCaribou/Algebra/EigenMatrix.h: constructors, set, initialize"]}
{"id": "C43", "title": "Row and column clearing on compressed storage is exact", "statement": "clearRow/clearRows/clearCol/clearCols/clearRowCol on a compressed sparse matrix zero exactly the designated entries, for row- and column-major storage; the symmetric shortcut of clearRowCol is right when the sparsity pattern is symmetric.", "quantifier": "every compressed sparse matrix and every index range", "why_tests_cant": "binary search over arbitrary index arrays", "anchors": ["src/SofaCaribou/Algebra/EigenMatrix.h: clearRow, clearRows, clearCol, clearCols, clearRowCol"]}
{"id": "C44", "title": "Conjugate gradient: reported convergence is genuine", "statement": "In exact arithmetic, whenever the solve reports convergence, the returned x satisfies |b - A x|^2 below the threshold, for any matrix, preconditioner, initial guess and iteration limit; the recorded squared residuals are the true residuals of the successive iterates.", "quantifier": "every system size, matrix, preconditioner, right-hand side, initial guess", "why_tests_cant": "all linear systems", "anchors": ["src/SofaCaribou/Solver/ConjugateGradientSolver.inl: solve"]}
{"id": "C45", "title": "Conjugate gradient: finite termination and monotonicity", "statement": "For a symmetric positive definite matrix of size n, in exact arithmetic, search directions are conjugate, the energy-norm error never increases, and the exact solution is reached after at most n iterations.", "quantifier": "every n, SPD matrix, SPD preconditioner, right-hand side, initial guess", "why_tests_cant": "all SPD systems of all sizes", "anchors": ["src/SofaCaribou/Solver/ConjugateGradientSolver.inl: solve"]}
{"id": "C46", "title": "Conjugate gradient: success is reported on success", "statement": "When the initial guess already solves the system, or the right-hand side is zero, the solve reports success.", "quantifier": "every system and initial guess", "why_tests_cant": "early exits only on special inputs", "anchors": ["src/SofaCaribou/Solver/ConjugateGradientSolver.inl: solve"]}
{"id": "C47", "title": "Newton-Raphson loop contract", "statement": "One solve performs at most the configured number of iterations, records one squared residual per completed iteration, sets the converged flag only if one of the configured criteria holds at the last iterate, and the final position is the initial one plus the sum of the increments.", "quantifier": "every force/linear solver behaviour, every threshold, every iteration limit", "why_tests_cant": "arbitrary behaviours of the force and solver callbacks", "anchors": ["src/SofaCaribou/Ode/NewtonRaphsonSolver.cpp: solve"]}
{"id": "C48", "title": "Newton-Raphson relative criterion refers to the initial residual", "statement": "The relative residual criterion compares the current residual with the residual at the beginning of the solve, as documented.", "quantifier": "every residual sequence", "why_tests_cant": "all sequences of residuals", "anchors": ["src/SofaCaribou/Ode/NewtonRaphsonSolver.cpp: solve"]}
{"id": "C49", "title": "Pattern analysis follows its strategy", "statement": "Over any sequence of solves and resets the matrix pattern is analysed never / exactly once per simulation / exactly once per solve / at each iteration according to the configured strategy.", "quantifier": "every history of solves and resets, every number of iterations", "why_tests_cant": "arbitrary histories", "anchors": ["src/SofaCaribou/Ode/NewtonRaphsonSolver.cpp: solve, reset, init"]}
{"id": "C50", "title": "Linear problems converge in one exact Newton step", "statement": "With a force affine in the position and an exact linear solver, one static Newton iteration reaches equilibrium.", "quantifier": "every dimension, every invertible stiffness, every load and start", "why_tests_cant": "all linear systems", "anchors": ["src/SofaCaribou/Ode/StaticODESolver.cpp", "src/SofaCaribou/Ode/NewtonRaphsonSolver.cpp"]}
{"id": "C51", "title": "Backward Euler residual and matrix are consistent", "statement": "The state after propagation satisfies v = v_n + h a and x = x_n + h v; for affine forces and Rayleigh damping the assembled system matrix is minus the derivative of the assembled right-hand side with respect to the acceleration, and when the Newton loop converges to zero residual the discrete equations of motion hold.", "quantifier": "every dimension, mass, damping, stiffness, time step, number of iterations", "why_tests_cant": "all linear systems and all iteration counts", "anchors": ["src/SofaCaribou/Ode/BackwardEulerODESolver.cpp"]}
{"id": "C52", "title": "Stress is the derivative of the energy", "statement": "For each hyperelastic material the second Piola-Kirchhoff stress returned for a strain C is twice the derivative of the strain energy density with respect to C.", "quantifier": "every symmetric C with positive determinant, every direction, all admissible parameters", "why_tests_cant": "analytic identity", "anchors": ["src/SofaCaribou/Material/NeoHookeanMaterial.h", "src/SofaCaribou/Material/SaintVenantKirchhoffMaterial.h"]}
{"id": "C53", "title": "Tangent is the derivative of the stress", "statement": "The 6x6 matrix returned as stress jacobian is, in the Voigt order used by the force field, the derivative of the stress with respect to the Green-Lagrange strain, and it is symmetric.", "quantifier": "every admissible C, direction and parameters", "why_tests_cant": "analytic identity", "anchors": ["src/SofaCaribou/Material/NeoHookeanMaterial.h", "src/SofaCaribou/Material/SaintVenantKirchhoffMaterial.h", "src/Caribou/Algebra/Tensor.h"]}
{"id": "C54", "title": "Rest state is stress free and energy is objective", "statement": "At C = I the energy and stress vanish, the energy is invariant under rotation of the deformed configuration, and the small-strain tangent is the isotropic Hooke matrix.", "quantifier": "every rotation, deformation and parameters", "why_tests_cant": "continuum of rotations", "anchors": ["src/SofaCaribou/Material/NeoHookeanMaterial.h", "src/SofaCaribou/Material/SaintVenantKirchhoffMaterial.h"]}
{"id": "C55", "title": "Nodal forces are minus the energy gradient", "statement": "For any mesh and deformation, the forces added by the hyperelastic force field are minus the gradient of the potential energy it reports.", "quantifier": "every mesh, element type given by its quadrature data, deformation and displacement direction", "why_tests_cant": "analytic identity over arbitrary meshes", "anchors": ["src/SofaCaribou/Forcefield/HyperelasticForcefield.inl: addForce, getPotentialEnergy"]}
{"id": "C56", "title": "Assembled stiffness is minus the force derivative", "statement": "The force increment computed for a displacement increment, and the matrix added to the global system, are the derivative of the added forces in this direction; the operator is symmetric and both paths agree.", "quantifier": "every mesh whose elements are not degenerate, every deformation that inverts no element, every direction", "why_tests_cant": "analytic identity over arbitrary meshes, half-stored matrix", "anchors": ["src/SofaCaribou/Forcefield/HyperelasticForcefield.inl: assemble_stiffness, addDForce, addKToMatrix", "src/SofaCaribou/Forcefield/HyperelasticForcefield.h: K"]}
{"id": "C57", "title": "Internal forces are self-balanced", "statement": "The internal forces of every element sum to zero and have zero net moment about any point.", "quantifier": "every mesh whose elements are not degenerate, every deformation (that inverts no element, for the Neo-Hookean law)", "why_tests_cant": "continuum", "anchors": ["src/SofaCaribou/Forcefield/HyperelasticForcefield.inl: addForce"]}
{"id": "C58", "title": "Parallel assembly is schedule independent", "statement": "Whatever the order in which threads contribute their element blocks, the assembled stiffness matrix is the same (in exact arithmetic).", "quantifier": "every interleaving of element contributions", "why_tests_cant": "all schedules", "anchors": ["src/SofaCaribou/Forcefield/HyperelasticForcefield.inl: assemble_stiffness (omp critical)"]}
{"id": "C59", "title": "Corotational force vanishes on rigid motions", "statement": "The corotational linear elastic force of a tetrahedron or hexahedron is zero for every rigid motion of the rest configuration, and its forces always sum to zero.", "quantifier": "every element, rotation and translation, every Young modulus and Poisson ratio", "why_tests_cant": "continuum of rigid motions", "anchors": ["src/SofaCaribou/Forcefield/{Hexahedron,Tetrahedron}ElasticForce.cpp: addForce, compute_K"]}
{"id": "C60", "title": "Corotational stiffness accessors agree", "statement": "The stiffness matrix returned by K() is the one that is added to the global system matrix.", "quantifier": "every mesh", "why_tests_cant": "arbitrary meshes", "anchors": ["src/SofaCaribou/Forcefield/HexahedronElasticForce.cpp: K, addKToMatrix"]}
{"id": "C61", "title": "Barycentric mapping is adjoint", "statement": "The force transfer of the barycentric mapping is the transpose of its velocity transfer: mapped power equals parent power; and constraint rows are transferred by the same transpose.", "quantifier": "every mesh, embedded point set, velocity field and force field", "why_tests_cant": "all vectors", "anchors": ["src/SofaCaribou/Mapping/CaribouBarycentricMapping.inl: applyJ, applyJT"]}
{"id": "C62", "title": "Traction force totals", "statement": "Applying a traction increment adds nodal forces whose sum is the traction times the integrated area of the surface.", "quantifier": "every surface mesh and traction", "why_tests_cant": "arbitrary meshes", "anchors": ["src/SofaCaribou/Forcefield/TractionForcefield.inl: increment_load"]}
{"id": "C63", "title": "Traction load history", "statement": "Over any number of steps the applied traction is never larger than the prescribed one, grows by slope times the prescribed traction every configured number of steps, reaches exactly the prescribed traction and stays there; resetting the simulation brings back a usable initial state.", "quantifier": "every history of steps and resets, every slope in (0,1], every step count", "why_tests_cant": "arbitrary histories", "anchors": ["src/SofaCaribou/Forcefield/TractionForcefield.inl: init, reset, handleEvent, increment_load"]}
{"id": "C64", "title": "Bounding box covers the nodes", "statement": "The bounding box computed by a force field contains every node and is the smallest such box.", "quantifier": "every list of node positions", "why_tests_cant": "all lists of positions, including monotone ones", "anchors": ["src/SofaCaribou/Forcefield/CaribouForcefield.inl: computeBBox", "src/SofaCaribou/Forcefield/HexahedronElasticForce.cpp: computeBBox"]}
{"id": "C65", "title": "Dyadic products are the symmetric tensor operations", "statement": "The two symmetric dyad helpers return, in Voigt form, the fourth order tensors (a x a) and the symmetrised product of a symmetric tensor with itself.", "quantifier": "every symmetric 3x3 tensor and every symmetric argument", "why_tests_cant": "polynomial identity", "anchors": ["src/Caribou/Algebra/Tensor.h"]}
{"id": "C66", "title": "VTK node reordering", "statement": "Reading a quadratic hexahedron from a VTK file yields node indices in the element's own canonical order.", "quantifier": "every connectivity list", "why_tests_cant": "all index lists", "anchors": ["src/Caribou/Topology/IO/VTKReader.cpp"]}
{"id": "C67", "title": "Planar meshes are recognised", "statement": "Reading a mesh of dimension d < 3 keeps exactly the axes along which coordinates vary and rejects a mesh whose number of varying axes differs from d.", "quantifier": "every list of 3D points", "why_tests_cant": "all lists of points", "anchors": ["src/Caribou/Topology/IO/VTKReader.cpp: extract_axes_from_3D_vectors"]}
{"id": "C68", "title": "Every supported cell of a file is read", "statement": "Reading a VTK file gives one domain per supported cell type present, holding exactly the cells of this type in the order of the file; the domains have different names and there is no other domain.", "quantifier": "every unstructured grid, every dimension", "why_tests_cant": "all files: any mix and order of cell types", "anchors": ["src/Caribou/Topology/IO/VTKReader.cpp: mesh", "src/Caribou/Topology/IO/VTKReader.h: register_element_type"]}
{"id": "C69", "title": "Linearisation point of the cached stiffness", "statement": "Whatever the history of calls, the force increments and the matrix given by the hyperelastic force field are those of one configuration and one set of material parameters: the ones at the first use of the stiffness after the last force computation; the forces always use the current positions and parameters.", "quantifier": "every history of moves, parameter changes, force, increment, matrix and energy calls", "why_tests_cant": "all histories of a cached state", "anchors": ["src/SofaCaribou/Forcefield/HyperelasticForcefield.inl: addForce, addDForce, addKToMatrix, assemble_stiffness, getPotentialEnergy"]}
{"id": "C70", "title": "Corotational material is linear elastic", "statement": "The corotational force fields give the forces and force increments of isotropic linear elasticity with the Young modulus and Poisson ratio chosen by the user: for displacements from rest when the option is off, and around the rest positions when it is on.", "quantifier": "every mesh of tetrahedra or hexahedra, every displacement and test displacement, every history of evaluations, all parameters", "why_tests_cant": "continuum of displacements and elements", "anchors": ["src/SofaCaribou/Forcefield/{Hexahedron,Tetrahedron}ElasticForce.cpp: reinit, compute_K, addForce, addDForce"]}
{"id": "C71", "title": "Initialising a corotational force field again", "statement": "Calling init or reinit again makes the current parameters effective and has no other effect: the forces are those of a new force field with these parameters, whatever was done before.", "quantifier": "every mesh, every history of calls", "why_tests_cant": "all histories", "anchors": ["src/SofaCaribou/Forcefield/{Hexahedron,Tetrahedron}ElasticForce.cpp: reinit"]}
{"id": "C72", "title": "Backward Euler never adds energy to a linear system", "statement": "For a linear elastic system with symmetric positive semi-definite mass, stiffness and damping and no external force, a time step of the backward Euler solver never increases the mechanical energy (kinetic plus elastic), whatever the size of the step.", "quantifier": "every dimension, every such system with fixed degrees of freedom, every state, every step size and damping coefficients, every exact linear solver", "why_tests_cant": "continuum of systems, states and step sizes", "anchors": ["src/SofaCaribou/Ode/BackwardEulerODESolver.cpp", "src/SofaCaribou/Ode/NewtonRaphsonSolver.cpp: solve"]}
{"id": "C73", "title": "Creating the fictitious grid", "statement": "Initialising the component creates the grid that the surface describes: every cell and sub-cell is Boundary when the surface goes through it, Outside when it is connected to the border of the grid without crossing the surface and Inside otherwise; the elements are the cells kept by the volume threshold; memory is never read out of range; doing it again gives the grid of the new surface only.", "quantifier": "every grid, every implicit function or tessellated surface, every number of subdivisions, every history of initialisations", "why_tests_cant": "arbitrary surfaces, sizes and histories; undefined behaviour may go unnoticed", "anchors": ["src/SofaCaribou/Topology/FictitiousGrid.inl: create_grid, init", "src/SofaCaribou/Topology/FictitiousGrid.cpp: tag_intersected_cells, subdivide_intersected_cells"]}
{"id": "C74", "title": "The legacy static solver", "statement": "A solve of the legacy static solver does at most the requested number of Newton iterations, records the residuals of the states it reaches, and reports convergence only if one of its criteria holds at the position it leaves; a linear system that could not be solved is never reported as convergence; for an affine force a single exact Newton iteration reaches equilibrium.", "quantifier": "every mechanical system, every linear solver (with failures), every configuration of thresholds, every initial state and every increment left by the previous solve", "why_tests_cant": "arbitrary non-linear systems, failures at any iteration, any thresholds", "anchors": ["src/SofaCaribou/Ode/LegacyStaticODESolver.cpp: solve"]}
{"id": "C77", "title": "Implicit surfaces", "statement": "The circle, the sphere and the cylinder of a given length are negative exactly inside the solid they are named after, null on its surface and positive outside; the fictitious grid created from a circle types as Inside exactly the cells that lie in the disc, and keeps as elements all the cells that meet it.", "quantifier": "every radius, length, centre and point; every two-dimensional grid and disc, every number of subdivisions", "why_tests_cant": "continuum of points, discs and grids", "anchors": ["src/SofaCaribou/Topology/CircleIsoSurface.h: iso_value", "src/SofaCaribou/Topology/SphereIsoSurface.h: iso_value", "src/SofaCaribou/Topology/CylinderIsoSurface.h: iso_value", "src/SofaCaribou/Topology/FictitiousGrid.inl: create_grid"]}
{"id": "C75", "title": "Direct linear solvers over a history of systems", "statement": "Each time an ODE solver gives a matrix, a right-hand side and an unknown to a direct linear solver (LDLT, LLT or LU) and asks it to solve, the unknown receives the solution of the system just given, or the failure is reported and the unknown is left as it was; the rules of use of the underlying decompositions are never broken, whatever was solved before.", "quantifier": "every history of matrices (of any dimension, pattern and values), right-hand sides, unknowns and resets; every exact decomposition, with failures", "why_tests_cant": "arbitrary histories; a stale symbolic analysis is memory corruption that may go unnoticed", "anchors": ["src/SofaCaribou/Solver/EigenSolver.inl: setSystemMBKMatrix, setSystemRHVector, setSystemLHVector, solveSystem, resetSystem", "src/SofaCaribou/Solver/LDLTSolver.inl: analyze_pattern, factorize, solve", "src/SofaCaribou/Solver/LLTSolver.inl", "src/SofaCaribou/Solver/LUSolver.inl"]}
{"id": "C76", "title": "The topology component shows what its data describe", "statement": "After a successful initialisation a topology component shows one element per list of indices, with the nodes found at these indices in the positions; after a domain is attached it shows that domain; invalid indices are refused; every element it shows can be read, whatever data were set, domains attached and initialisations done before.", "quantifier": "every history of positions, indices, attached domains and initialisations, with or without a mechanical state; every element", "why_tests_cant": "histories; reads through a dangling pointer may go unnoticed", "anchors": ["src/SofaCaribou/Topology/CaribouTopology.inl: attachDomain, initializeFromIndices, init", "src/SofaCaribou/Topology/CaribouTopology.h: element, number_of_elements"]}
{"id": "C78", "title": "Copies and scalar products of scene vectors", "statement": "The visitor a := b leaves every concerned mechanical state with a vector a equal to its vector b and every other state untouched, according to its options; the scalar product of two vectors of the same size is the sum of the products, whatever the types of the two vectors.", "quantifier": "every scene, every options, every vectors of any size and content", "why_tests_cant": "arbitrary sizes of both vectors, all pairs of vector types", "anchors": ["src/SofaCaribou/Visitor/MultiVecEqualVisitor.cpp: internal_copy, copy, fwdMechanicalState, fwdMappedMechanicalState", "src/SofaCaribou/Algebra/BaseVectorOperations.cpp: dot"]}
{"id": "C79", "title": "Parallel subdivision is schedule independent", "statement": "The subdivision of the cells, which runs in parallel with one queue of sub-cells per cell, always ends and gives every cell the same tree (types and weights) as a sequential recursive subdivision, whatever the interleaving of the threads.", "quantifier": "every 2D or 3D grid, every test of the sub-cells, every number of levels, every schedule", "why_tests_cant": "schedules are not controllable by tests; unbounded number of levels and cells", "anchors": ["src/SofaCaribou/Topology/FictitiousGrid.cpp: subdivide_intersected_cells"]}
{"id": "C80", "title": "Grid numbering with machine integers", "statement": "With the 64-bit signed and unsigned integers of the code, the cells, nodes, edges and faces of a regular grid are counted and numbered exactly (same bijections as with unbounded integers, no wrap-around) whenever they fit in the index type, and the index of arbitrary signed grid coordinates is the exact one whenever it is representable. Loops over all cells or elements visit each of them once.", "quantifier": "every grid in two or three dimensions with at most 2^63 cells (nodes, edges), every cell, node, edge or face of it, every signed coordinates; every count for the loops", "why_tests_cant": "Wrap-around only appears for sizes no test can allocate, and mixed signed/unsigned arithmetic is right on small examples by construction.", "anchors": ["src/Caribou/Config/config.h.in: INTEGER_TYPE, UNSIGNED_INTEGER_TYPE", "src/Caribou/Topology/Grid/Internal/BaseGrid.h: number_of_cells, number_of_nodes", "src/Caribou/Topology/Grid/Internal/BaseMultidimensionalGrid.h", "src/Caribou/Topology/Grid/Grid.h: edge, face, node_indices_of", "src/SofaCaribou/Topology/FictitiousGrid.cpp:147,239", "src/SofaCaribou/Forcefield/HyperelasticForcefield.inl:434"]}
{"id": "C81", "title": "Set-up of a force field", "statement": "A force field added to a scene is made for the element type the scene asks for (by name, up to letter case; otherwise from the given topology; otherwise from the topologies of the node), for one type only, and after initialisation it works exactly on the elements of the given topology, or of the only topology of the node that holds such elements, with the nodes where the mechanical state puts them. Without a topology, a mechanical state or a material it reports it and works on nothing.", "quantifier": "every scene (any list of objects, of any classes, any paths), every description, each of the twelve element types, every mechanical state, every indices", "why_tests_cant": "The outcome depends on every combination of objects present in a node, on their order and on which attributes are given; tests contain a few well-formed scenes.", "anchors": ["src/SofaCaribou/Forcefield/CaribouForcefield.inl: init, canCreate", "src/SofaCaribou/Forcefield/CaribouForcefield[Tetrahedron].cpp, [Hexahedron].cpp, [Triangle].cpp, [Quad].cpp: get_indices_from, mesh_is_compatible", "src/SofaCaribou/Topology/CaribouTopology[*].cpp: templateName", "src/SofaCaribou/Forcefield/HyperelasticForcefield.inl: init"]}
{"id": "C82", "title": "Grid queries on doubles", "statement": "With the doubles the library computes with, a grid still finds for every point of its box a cell of the grid that contains the point up to a relative rounding error (exactly the right cell unless the point is that close to a side), orders the cells as the points, places its nodes within a few roundings and in order, finds every point of its box to be in the grid, and returns around a point only cells that contain it up to rounding: two, four or eight for a node.", "quantifier": "every grid of dimension 1, 2 or 3 with up to 2^48 subdivisions per axis, any double anchor and size of magnitude up to 2^300, every double point", "why_tests_cant": "Rounding depends on every bit of the anchor, the size and the point; tests use a few round numbers, for which the results happen to be exact.", "anchors": ["src/Caribou/Topology/Grid/Internal/BaseGrid.h: H, node, cell_coordinates_at, cell_index_containing, contains, cells_around", "src/Caribou/Config/config.h.in: EPSILON; src/Caribou/Config/macros.h.in: IN_CLOSED_INTERVAL"]}
{"id": "C83", "title": "Shape functions and interpolation on doubles", "statement": "With the doubles the library computes with, every shape function and every derivative is finite and within 2^-44 of its exact value on the reference element, their sum is 1 within 20 times that, at a node they are exactly 1 and 0; interpolated values and Jacobian entries are within 2^-35 of the largest nodal value of their exact values in whatever order the terms are added, and interpolation at a node returns exactly the nodal value; the shape functions of the linear segment, triangle, quad and hexahedron are never negative inside the element.", "quantifier": "every element type, every local point with double coordinates in [-1, 1], all nodal doubles of magnitude up to 2^900, every order of summation", "why_tests_cant": "Rounding errors depend on every bit of the point and of the nodes and on the order in which the linear algebra library adds; tests compare a few points with a tolerance.", "anchors": ["src/Caribou/Geometry/Element.h: interpolate, jacobian, world_coordinates", "src/Caribou/Geometry/Segment.h, Triangle.h, Quad.h, Tetrahedron.h, Hexahedron.h: get_L, get_dL"]}
{"id": "C84", "title": "Spatial hash on doubles and machine integers", "statement": "With the doubles and 64-bit integers the library computes with, as long as coordinates stay within 2^28 cells of the origin every addition and every query is defined, and a query returns every added element whose bounding box contains the point, even on the boundary of the box, and only elements whose bounding box is closer than about one cell.", "quantifier": "every positive double cell size up to 2^900, every history of additions of elements of dimension 1 to 3 with finite double nodes, every finite double query point", "why_tests_cant": "A missed element needs a coordinate whose quotient by the cell size rounds across an integer; tests use round numbers. Overflows need far coordinates.", "anchors": ["src/Caribou/Topology/HashGrid.h: add, get, HashFunction, HashEqual"]}
{"id": "C85", "title": "Local containment on doubles", "statement": "With IEEE doubles, contains_local never accepts a point with a NaN or infinite coordinate; with the default tolerances (1e-10, and 1e-15 from Python) it accepts every point of the closed reference element and no point farther than 2e-10 (2e-14) from it. For any tolerance up to 1 the answer is right except within 2^-46 of the enlarged boundary, and on segments, quads and hexahedra it is exactly the comparison with the rounded bound.", "quantifier": "every element type that has the query, every list of doubles (NaN and infinities included), every finite double tolerance between 0 and 1", "why_tests_cant": "The points at risk are those whose coordinates round across the boundary, and overflowing or NaN coordinates; there are 2^64 doubles per coordinate.", "anchors": ["src/Caribou/Geometry/Element.h: contains_local", "src/Caribou/Geometry/BaseSegment.h, BaseTriangle.h, BaseQuad.h, BaseTetrahedron.h, BaseHexahedron.h, BaseRectangularHexahedron.h: get_contains_local", "src/Caribou/Config/macros.h.in: IN_CLOSED_INTERVAL", "src/Caribou/Python/Geometry/Element.h: contains_local"]}
{"id": "C86", "title": "Conjugate gradient on doubles: reported convergence", "statement": "With IEEE doubles, whatever the order in which the sums are made and whatever the preconditioner: the solve makes at most the allowed number of iterations, records one squared residual per iteration, reports convergence exactly when the last recorded one is below the threshold, and never for a system with a NaN or an infinity in it. When it reports convergence, the exact residual b - A x of the returned vector is within the asked tolerance of the norm of b, up to rounding.", "quantifier": "every size, matrix, right-hand side and initial guess of doubles (NaN and infinities included), every order of summation at each sum, every preconditioner, tolerance and iteration limit", "why_tests_cant": "The recorded residual is updated by recurrence and drifts away from the true one at a rate that depends on all the iterates; the summation order depends on the vectorisation and alignment.", "anchors": ["src/SofaCaribou/Solver/ConjugateGradientSolver.inl: solve", "src/SofaCaribou/Solver/EigenSolver.inl: solveSystem, setSystemLHVector"]}
{"id": "C87", "title": "Intersection of a general hexahedron", "statement": "The intersection test of a linear or quadratic hexahedron of any shape with a segment or a triangle answers yes exactly when the two have a common point.", "quantifier": "every hexahedron with non degenerate nodes, every segment and every triangle of space", "why_tests_cant": "The test works on the local coordinates of the end points, found by an iteration; whether the answer is right depends on the shape of the element and on all the points of the segment, an uncountable set for each input.", "anchors": ["src/Caribou/Geometry/BaseHexahedron.h: intersects, intersects_local_segment, intersects_local_polygon", "src/Caribou/Geometry/Element.h: local_coordinates"]}
{"id": "C88", "title": "Objects obtained from a Python script stay usable", "statement": "In a Python script, a mesh, a domain of a mesh or a container embedded in a domain can be used as long as the script has a variable for it, and answers with the nodes and the tables that were given; adding other domains, renaming or deleting variables never changes an answer.", "quantifier": "every sequence of statements creating meshes, adding, looking up and embedding domains, aliasing, reassigning and deleting variables, and querying them", "why_tests_cant": "Which C++ object is destroyed when depends on the whole history of the variables; a use after free often still returns the right numbers in a test.", "anchors": ["src/Caribou/Python/Topology/Mesh.cpp: declare_mesh", "src/Caribou/Python/Topology/Domain.h: declare_domain, add_domain", "src/Caribou/Python/Topology/BarycentricContainer.h: declare_barycentric_container, embed", "src/Caribou/Topology/Mesh.h: add_domain, domain", "src/Caribou/Topology/BarycentricContainer.h: p_container_domain"]}
{"id": "C89", "title": "One linear system for all the bodies of a scene", "statement": "The matrix a solver assembles for a scene with several bodies, force fields, constraints and mapped states gives, for any two motions of the scene, the virtual work of all the force fields that take part; bodies that are not linked do not interact; reading the vectors of the states into the global vector and back is exact; fixed unknowns do not move in any solution.", "quantifier": "every scene (any number of states, chains of mappings, force fields and constraints), every earlier use of the matrix, both storage orders, all motions", "why_tests_cant": "The matrix depends on the whole scene and on the order in which force fields, constraints and mappings are visited; a test fixes one scene.", "anchors": ["src/SofaCaribou/Solver/EigenSolver.inl: assemble, setSystemRHVector, setSystemLHVector, solveSystem", "src/SofaCaribou/Visitor/AssembleGlobalMatrix.cpp", "src/SofaCaribou/Visitor/ConstrainGlobalMatrix.cpp", "src/SofaCaribou/Ode/StaticODESolver.cpp: assemble_system_matrix, propagate_solution_increment"]}
{"id": "C90", "title": "The stiffness, its eigenvalues and its condition number given to a script", "statement": "At any time during a simulation a script can ask a hyperelastic force field for its stiffness, the eigenvalues and the condition number of it, or have it assembled at positions of its choice. The matrix is that of the latest assembly and the one the solver gets, the eigenvalues are always those of the matrix given at the same time, questions change nothing, translations are in the kernel, and the condition number is the one of the matrix.", "quantifier": "every interleaving of calls by the simulation and by scripts, every mesh of solid elements, material, parameters and positions, every eigenvalue solver", "why_tests_cant": "The matrix and its eigenvalues are cached behind two flags reset in different calls; which values are seen depends on the whole history.", "anchors": ["src/SofaCaribou/Forcefield/HyperelasticForcefield.h: K", "src/SofaCaribou/Forcefield/HyperelasticForcefield.inl: init, addForce, assemble_stiffness, eigenvalues, cond", "src/SofaCaribou/Python/Forcefield/HyperelasticForcefield.h: bind_hyperelastic_forcefield"]}
{"id": "C91", "title": "Wrappers of dense matrices and vectors, by copy and by reference", "statement": "A program may make matrices (vectors) of its own, wrap them by copy or by reference, make wrappers of a given size, and call them in any order. A wrapper by copy shows the matrix as it was when wrapped, changed by its own calls only. A wrapper by reference always shows the matrix of the user, which is changed in order by the user and by every wrapper that refers to it, and by nothing else. The content of a wrapper made with a size is unknown until written, and from a clear or a resize on nothing of the earlier content matters. Calls in range never fail. The same careful calls give the same matrix in a dense and in a sparse wrapper.", "quantifier": "every program of any length with any number of matrices and wrappers, every size, storage order, value and block", "why_tests_cant": "Aliasing between wrappers and matrices and all interleavings of calls through them.", "anchors": ["src/SofaCaribou/Algebra/EigenMatrix.h: EigenMatrix (dense)", "src/SofaCaribou/Algebra/EigenVector.h: EigenVector"]}
{"id": "C92", "title": "Elements made in Python are those the arguments describe", "statement": "The Python functions Segment, Triangle, Quad, Tetrahedron and Hexahedron return, for points given one after the other or in one array, as arrays of doubles, arrays of other numbers or lists in any mixture, the element whose nodes are these points in this order, linear or quadratic by their number. With an order, the points of a linear element give that element or a quadratic one with the same geometry. Without points they return the reference element in the dimension and order asked for. Whatever the arguments, an element that is returned is of the family asked for and carries exactly the numbers of the arguments. RectangularHexahedron returns the rectangular hexahedron with the given nodes or center, size and rotation.", "quantifier": "every list of positional arguments: numbers, arrays of every kind and shape, dimensions, orders, in any number", "why_tests_cant": "Overload resolution tries up to sixteen overloads twice; which one takes a call depends on the kinds and shapes of all arguments.", "anchors": ["src/Caribou/Python/Geometry/Segment.cpp: create_segment", "src/Caribou/Python/Geometry/Triangle.cpp", "src/Caribou/Python/Geometry/Quad.cpp", "src/Caribou/Python/Geometry/Tetrahedron.cpp", "src/Caribou/Python/Geometry/Hexahedron.cpp", "src/Caribou/Python/Geometry/RectangularHexahedron.cpp"]}
{"id": "C93", "title": "The stiffness of a body at rest is positive, and zero only along rigid motions", "statement": "For a solid at its rest position, with either material law and an admissible Young modulus and Poisson ratio, the stiffness matrix given to the solvers is the matrix of linear elasticity: it is positive semidefinite, and it annihilates exactly the displacements without strain at the integration points. Every translation and infinitesimal rotation is among these, and for a mesh in one piece nothing else is. Holding three nodes that are not aligned then makes the matrix positive definite, so that a conjugate gradient or a Cholesky factorization applies.", "quantifier": "every mesh of solid elements with non-degenerate elements, every admissible material, every displacement", "why_tests_cant": "Definiteness and the kernel of the assembled matrix concern every mesh and every displacement; a test sees the spectrum of a few meshes.", "anchors": ["src/SofaCaribou/Forcefield/HyperelasticForcefield.inl: assemble_stiffness, get_gauss_nodes", "src/SofaCaribou/Material/SaintVenantKirchhoffMaterial.h", "src/SofaCaribou/Material/NeoHookeanMaterial.h", "src/Caribou/Geometry/Hexahedron.h: get_gauss_nodes", "src/Caribou/Geometry/Tetrahedron.h: get_gauss_nodes"]}
{"id": "C94", "title": "What a force field draws is its mesh", "statement": "When force fields are shown, a force field draws every element of its mesh at the current positions of its nodes, shrunk around its center by the drawing scale: one group of triangles with its own color for each face of the volume elements, one group for surface elements. With a scale of one the vertices are the nodes where they are; the drawing moves with the body under every affine motion; the triangles of volume elements are a closed surface turned to the outside, which encloses the volume of the elements times the cube of the scale; a scale between 0 and 1 never draws a linear element outside of its nodes. The same is expected of the co-rotational force fields for tetrahedra and hexahedra, which have a fixed scale.", "quantifier": "every mesh of triangles, quads, tetrahedra and hexahedra, linear or quadratic, in the plane or in space, all positions of the nodes, all scales and all affine motions", "why_tests_cant": "A drawing is checked by eye on a few scenes; that the tables of faces close up, that orientations agree and that the picture follows the body must hold for every mesh and every position.", "anchors": ["src/SofaCaribou/Forcefield/CaribouForcefield.inl: draw", "src/SofaCaribou/Forcefield/CaribouForcefield[Triangle].cpp: triangulate_face", "src/SofaCaribou/Forcefield/CaribouForcefield[Quad].cpp: triangulate_face", "src/SofaCaribou/Forcefield/CaribouForcefield[Tetrahedron].cpp: triangulate_face", "src/SofaCaribou/Forcefield/CaribouForcefield[Hexahedron].cpp: triangulate_face", "src/SofaCaribou/Forcefield/TetrahedronElasticForce.cpp: draw", "src/SofaCaribou/Forcefield/HexahedronElasticForce.cpp: draw"]}
{"id": "C95", "title": "Grids and hash grids used from Python", "statement": "From Python, Grid2D and Grid3D make a grid from any spelling of its anchor, numbers of cells and sizes, and give them back. Every method of the C++ grids can be called: cells, nodes, edges and faces are numbered from 0 without holes, coordinates and indices are inverse of each other, node gives the position of a node by index or by coordinates, node_indices_of the corners of a cell, cell_at its element, and every point of the box is located in a cell that contains it. Arguments that make no sense, such as an index that is not one of the grid, raise an exception. A hash grid made for a class of elements takes exactly the elements of this class; after any sequence of additions, get(p) contains the number of every element whose bounding box contains p.", "quantifier": "all grids of dimension 2 and 3 with positive sizes and at most 2^63 nodes, all spellings of the arguments (lists, arrays of any type, numbers), all calls, all histories of additions to a hash grid", "why_tests_cant": "The tests of the bindings call a few methods on one grid; the choice between overloads depends on the types of the arguments and on the base classes, and the numbering must be right for every grid.", "anchors": ["src/Caribou/Python/Topology/Grid.cpp: declare_base_grid, declare_multidim_grid, declare_grid", "src/Caribou/Python/Topology/HashGrid.cpp: declare_hashgrid, addHashGrid", "src/Caribou/Topology/Grid/Internal/BaseGrid.h", "src/Caribou/Topology/Grid/Internal/BaseMultidimensionalGrid.h", "src/Caribou/Topology/Grid/Grid.h", "src/Caribou/Topology/HashGrid.h"]}
{"id": "C96", "title": "A body stores energy exactly when it is deformed", "statement": "The potential energy reported by the hyperelastic force field is never negative, is zero when the body has only been moved rigidly, and is positive for every other placement of its nodes; in particular, once three nodes that are not aligned are held, every displacement of the others costs energy. Where the energy is zero the force field applies no force. Crushing an element to no volume costs an unbounded energy.", "quantifier": "all meshes of volume elements without degenerate integration points, all placements of the nodes, all Young moduli and Poisson ratios, both laws", "why_tests_cant": "The states without energy are an infinite set; tests only compare energies of a few states, and an element with a hidden second rest state passes all of them.", "anchors": ["src/SofaCaribou/Forcefield/HyperelasticForcefield.inl: getPotentialEnergy, addForce", "src/SofaCaribou/Material/NeoHookeanMaterial.h: strain_energy_density", "src/SofaCaribou/Material/SaintVenantKirchhoffMaterial.h: strain_energy_density", "src/Caribou/Geometry/Tetrahedron.h: gauss_nodes", "src/Caribou/Geometry/Hexahedron.h: gauss_nodes"]}
{"id": "C97", "title": "The elasticity force fields pass the patch test", "statement": "When all the nodes of a mesh are moved by one affine map, the force fields apply no force on a node surrounded by elements that fit together, whatever the shapes of the elements and the material; on the other nodes the force is the stress of that uniform deformation times the node's share of the uncovered faces.", "quantifier": "all meshes of volume elements, all affine maps of the nodes, all materials, all nodes; for the corotational force fields all histories of evaluations", "why_tests_cant": "The balance at an inner node involves all the shapes the elements around it can have together; tests use a few regular meshes, where wrong integration rules also pass.", "anchors": ["src/SofaCaribou/Forcefield/HyperelasticForcefield.inl: addForce, initialize_elements, get_gauss_nodes", "src/SofaCaribou/Forcefield/TetrahedronElasticForce.cpp: addForce", "src/SofaCaribou/Forcefield/HexahedronElasticForce.cpp: addForce, get_gauss_nodes", "src/Caribou/Geometry/Tetrahedron.h: dL, gauss_nodes", "src/Caribou/Geometry/Hexahedron.h: dL, gauss_nodes"]}
{"id": "C98", "title": "A uniformly stressed body loaded by the matching tractions is in equilibrium", "statement": "When the nodes of a body have been moved by one affine map and traction force fields on plane parts of its boundary carry, fully applied, the tractions of the uniform stress, the forces of the elasticity force field and of the tractions add up to zero on every node whose uncovered faces are loaded or carry no traction; so a body pulled at its ends reaches the stretch that the material law predicts.", "quantifier": "all materials; all meshes of linear tetrahedra, of linear hexahedra of any shape, or of quadratic elements that are affine images of the reference element; linear elasticity with all histories of evaluations; all affine maps; any number of tractions on linear triangles, plane convex quads, or quadratic triangles and quads that are affine images of the reference element; any schedule by which the tractions were applied", "why_tests_cant": "The balance ties three integration rules (volume, surface, increments of the load) for all shapes, materials and loading schedules; tests compare a displacement with a tolerance on one beam.", "anchors": ["src/SofaCaribou/Forcefield/TractionForcefield.inl: increment_load, addForce, handleEvent", "src/SofaCaribou/Forcefield/HyperelasticForcefield.inl: addForce", "src/SofaCaribou/Forcefield/TetrahedronElasticForce.cpp: addForce", "src/SofaCaribou/Forcefield/HexahedronElasticForce.cpp: addForce", "src/Caribou/Geometry/Triangle.h: gauss_nodes", "src/Caribou/Geometry/Quad.h: gauss_nodes"]}
{"id": "C99", "title": "A barycentric mapping gets the topology the scene describes, and maps with the current embedding or not at all", "statement": "A barycentric mapping is created with the element type named by its template, otherwise with that of the topology it is linked to, otherwise with that of the nearest topology, and it uses that topology. After any history of initialisations of the topology and of the mapping it maps positions, velocities and forces with the embedding of the mapped rest positions in the current elements, or leaves its output alone.", "quantifier": "all scene trees, positions of the mapping in them, names, paths, attributes and orders of the factory; all histories of initialisations of the topology and of the mapping, with all mechanical objects", "why_tests_cant": "Tests build two or three scenes and initialise once; the choice depends on the whole scene tree and on the order of registration, and a stale embedding only shows after particular histories.", "anchors": ["src/SofaCaribou/Mapping/CaribouBarycentricMapping.inl: canCreate, init, apply, applyJ, applyJT", "src/SofaCaribou/Mapping/CaribouBarycentricMapping[Tetrahedron].cpp", "src/SofaCaribou/Mapping/CaribouBarycentricMapping[Hexahedron].cpp", "src/SofaCaribou/Topology/CaribouTopology.inl: initializeFromIndices", "src/Caribou/Topology/BarycentricContainer.h: interpolate"]}
{"id": "C100", "title": "The distribution of volume ratios lists every cell once, under the part of its volume that is kept", "statement": "After the creation of a fictitious grid, the table of volume ratios has increasing keys, and each cell of the grid is listed under exactly one of them: the part of the volume of the cell that is inside or on the boundary, rounded to the requested number of decimals, or exact if that number is zero. With d decimals there are at most 10^d + 1 entries, from 0 to 1.", "quantifier": "all grids of two or three dimensions, implicit surfaces, tessellated surfaces and intersection tests, levels of subdivision, thresholds and numbers of decimals", "why_tests_cant": "Tests look at one circle and one sphere; the table depends on the tree of each cell, on the type given to each cell and on ties between rounded ratios.", "anchors": ["src/SofaCaribou/Topology/FictitiousGrid.inl: cell_volume_ratio_distribution, get_cell_weight, create_grid", "src/SofaCaribou/Topology/FictitiousGrid.h: documentation of cell_volume_ratio_distribution", "src/SofaCaribou/Python/Topology/FictitiousGrid.cpp"]}
{"id": "C101", "title": "Over a whole simulation, an ODE solver does Newton's method with the linear solver that the scene describes", "statement": "At its initialisation a Caribou ODE solver keeps the linear solver it is linked to, or takes the first Caribou linear solver of its node. Then, in any history of time steps, initialisations, resets, changes of the link and uses of the linear solvers by others, each time step is a step of Newton's method: each increment is a solution of the current system, the step stops as soon as the tests say so, after the last allowed iteration or at a system that the linear solver cannot solve, and the result says whether it converged. A step without a linear solver does nothing.", "quantifier": "all histories, systems (right-hand sides, matrices and their stored positions, both depending on the state), convergence tests, strategies for the analysis of the pattern, direct solvers and numbers of solvers in the scene", "why_tests_cant": "A test runs one scene with one strategy. Whether the analysis of the pattern is still the right one depends on everything that happened to the linear solver since: changes of link, resets, other users, matrices with other positions.", "anchors": ["src/SofaCaribou/Ode/NewtonRaphsonSolver.cpp: init, reset, has_valid_linear_solver, solve", "src/SofaCaribou/Solver/EigenSolver.h: set_system_matrix", "src/SofaCaribou/Solver/LDLTSolver.inl, LLTSolver.inl, LUSolver.inl: analyze_pattern, factorize, solve"]}
{"id": "C102", "title": "The elastic forces turn with the body", "statement": "Moving a body by a rotation Q and a translation turns the forces of its force field by Q, node by node, turns its force increments for a displacement turned by Q, and leaves its elastic energy unchanged. The frame in which the scene is described does not matter: giving the rest positions, or all positions, in another frame gives the same forces, in that frame.", "quantifier": "all rotations and translations, all positions (not only the rest positions), all meshes, force vectors and displacements, both hyperelastic materials and all element types, and for the corotational force fields all histories of calls", "why_tests_cant": "A test turns one mesh by one angle. The claim is an identity over all rotations, deformations and meshes; with corotation it also depends on the frames kept from earlier calls.", "anchors": ["src/SofaCaribou/Forcefield/HyperelasticForcefield.inl: addForce, addDForce, getPotentialEnergy, assemble_stiffness", "src/SofaCaribou/Material/NeoHookeanMaterial.h, SaintVenantKirchhoffMaterial.h: PK2_stress", "src/SofaCaribou/Forcefield/TetrahedronElasticForce.cpp: reinit, addForce, addDForce", "src/SofaCaribou/Forcefield/HexahedronElasticForce.cpp: reinit, addForce, addDForce"]}
{"id": "C103", "title": "The elastic forces do not depend on how the mesh is numbered", "statement": "Describing the same body by another mesh file changes nothing: elements given in another order, the nodes of an element listed in any order allowed by the symmetries of its shape, nodes given other numbers. Every node gets the same force, the same force increment, and the body has the same energy.", "quantifier": "all meshes of linear and quadratic tetrahedra and hexahedra, all permutations of the elements and of the numbers of the nodes, all listings generated by the symmetries of the reference elements (24 for a tetrahedron, 48 for a hexahedron), chosen per element, all positions, displacements and force vectors, both hyperelastic materials, corotation on or off", "why_tests_cant": "Tests load one mesh in one numbering. The claim ranges over all numberings of all meshes: a wrong entry in a table of nodes, weights or derivatives can be invisible in the one listing a mesh generator produces.", "anchors": ["src/SofaCaribou/Forcefield/HyperelasticForcefield.inl: addForce, addDForce, getPotentialEnergy, assemble_stiffness, initialize_elements", "src/SofaCaribou/Forcefield/TetrahedronElasticForce.cpp: reinit, addForce, addDForce", "src/SofaCaribou/Forcefield/HexahedronElasticForce.cpp: reinit, addForce, addDForce", "src/Caribou/Geometry/Tetrahedron.h, Hexahedron.h: dL, gauss_nodes"]}
{"id": "C104", "title": "An isolated body keeps its momentum", "statement": "In a backward Euler simulation the total momentum of a body on which no external force acts never changes and its centre of mass moves at constant velocity; under a constant total load the momentum grows in proportion to the time. This holds at every step, whatever the internal forces, and whether or not the Newton iterations converge.", "quantifier": "all internal forces, linear or not, whose sum, and the sum of whose stiffness and damping contributions, vanish; all mass matrices, time steps, parameters of the solver, exact linear solvers (that may fail at any time), numbers of steps and iterations", "why_tests_cant": "A test integrates one body for some steps and compares within a tolerance. The claim is an exact invariant over all histories, in particular those where iterations stop early, fail, or are not done at all.", "anchors": ["src/SofaCaribou/Ode/BackwardEulerODESolver.cpp: solve, assemble_rhs_vector, assemble_system_matrix, propagate_solution_increment", "src/SofaCaribou/Ode/NewtonRaphsonSolver.cpp: solve"]}
{"id": "C105", "title": "The load of a surface does not depend on how the surface is described", "statement": "Describing the loaded surface otherwise changes nothing: elements given in another order, the nodes of an element listed in any order allowed by the symmetries of its shape (turned over included), nodes given other numbers. At any time every node carries the same force and the force field reports the same total load. Giving the surface and the traction in another frame turns the forces with the frame. A surface cut into parts, each with its own force field, is loaded as the whole.", "quantifier": "all surfaces of linear and quadratic triangles and quads, in the plane or in space, plane or not, all tractions, slopes (negative ones included) and numbers of steps between increments, all histories of events since init, all permutations, listings (6 for a triangle, 8 for a quad), frames (rotations, mirrors and translations) and cuts", "why_tests_cant": "Tests load one mesh with one traction in one frame. The claim ranges over all descriptions of all surfaces and over all histories, where one comparison of norms decided otherwise would separate two runs for ever.", "anchors": ["src/SofaCaribou/Forcefield/TractionForcefield.inl: init, handleEvent, increment_load, addForce, get_gauss_nodes", "src/Caribou/Geometry/Triangle.h, Quad.h: L, dL, gauss_nodes"]}
{"id": "C106", "title": "Mapped nodes follow the body they are embedded in", "statement": "The nodes of a barycentric mapping move with the parent mesh. A parent moved further by an affine map (translation, rotation, uniform strain) from any deformed position moves the mapped positions and velocities by the same map; from the rest position each mapped node goes to the image of its own rest position. The parent receives forces equivalent to those of the mapped nodes: same resultant, same moment in the current position, same power in every affine motion. Two neighbours give the same value to a point of their common face, so that the order of the elements changes nothing that is transferred.", "quantifier": "all meshes of the parent, all mapped nodes inside it, all deformed positions, affine maps, forces and fields; for the rest positions and the order, meshes of affine elements (resp. simplices) and mapped nodes at 1e-5 or more from the local origins", "why_tests_cant": "Tests map a few nodes of one grid in one deformed position. The claim ranges over all meshes, deformed positions, affine maps, forces and orders of the elements.", "anchors": ["src/SofaCaribou/Mapping/CaribouBarycentricMapping.inl: init, apply, applyJ, applyJT", "src/Caribou/Topology/BarycentricContainer.h: barycentric_point, set_embedded_points, interpolate", "src/Caribou/Geometry/Element.h: local_coordinates"]}
{"id": "C107", "title": "In a uniform state only the skin of the mesh matters", "statement": "When a body is deformed uniformly (x = t + Q X), the elastic force field gives results that do not depend on how the inside is meshed. The energy is the energy density of the material times the volume at rest, and this volume is the one enclosed by the uncovered faces. Two meshes with the same uncovered faces, whatever their elements and inner nodes, have the same volume, the same energy and the same nodal forces. In a mesh of linear elements, inner nodes may be moved without changing the volume, the energy or the forces, as long as no element is turned over.", "quantifier": "all volumetric meshes whose elements are numbered alike, all materials, translations and matrices Q; for quadratic elements, straight ones only", "why_tests_cant": "Tests compare two refinements of one beam, within a tolerance. The claim ranges over all pairs of meshes with the same skin, all positions of the inner nodes and all uniform deformations.", "anchors": ["src/SofaCaribou/Forcefield/HyperelasticForcefield.inl: addForce, getPotentialEnergy", "src/SofaCaribou/Forcefield/HexahedronElasticForce.cpp: addForce", "src/SofaCaribou/Forcefield/TetrahedronElasticForce.cpp: addForce", "src/Caribou/Geometry/Element.h: jacobian"]}
{"id": "C108", "title": "The results do not depend on the units", "statement": "The user chooses the units: metres and pascals, or millimetres and megapascals. If all lengths are multiplied by a and all pressures by b, the hyperelastic force field gives forces and force increments multiplied by b a^2 and energies multiplied by b a^3. The corotational force fields, with the option on or off and after any history of calls, give forces and increments multiplied by b a^2 and matrix entries multiplied by b a. The material computed from Young's modulus follows. A traction load, after any sequence of time steps, gives nodal forces and a total load multiplied by b a^2, in as many steps. So a body and its loads are in equilibrium in one system of units exactly when they are in another. The Newton-Raphson solver, given the same system in other units, does the same iterations, gives the same verdict and reaches the same state, unless a displacement reached is negligible. This fails for the intersection tests of general hexahedra, which contain an absolute length, and for negligible displacements in the Newton-Raphson solver, compared with an absolute constant.", "quantifier": "all meshes without flat elements, all materials, displacements, loads, sequences of events, and units a > 0, b > 0", "why_tests_cant": "Tests fix one system of units per scene. A hidden absolute constant shows only in scenes much smaller, larger, softer or stiffer than those tested.", "anchors": ["src/SofaCaribou/Forcefield/HyperelasticForcefield.inl: addForce, addDForce, getPotentialEnergy, assemble_stiffness", "src/SofaCaribou/Material/NeoHookeanMaterial.h: before_update, PK2_stress, PK2_stress_jacobian", "src/SofaCaribou/Material/SaintVenantKirchhoffMaterial.h: before_update, PK2_stress, PK2_stress_jacobian", "src/SofaCaribou/Forcefield/TractionForcefield.inl: init, handleEvent, increment_load", "src/Caribou/Geometry/BaseHexahedron.h: intersects", "src/Caribou/Geometry/Element.h: local_coordinates", "src/SofaCaribou/Forcefield/TetrahedronElasticForce.cpp: addForce, addDForce, addKToMatrix", "src/SofaCaribou/Forcefield/HexahedronElasticForce.cpp: addForce, addDForce, addKToMatrix", "src/SofaCaribou/Ode/NewtonRaphsonSolver.cpp: solve"]}

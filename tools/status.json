{
 "C01": [
  "proved",
  "all three dimensions, cells and nodes; unbounded integers"
 ],
 "C02": [
  "proved",
  "all three dimensions"
 ],
 "C03": [
  "proved",
  "all three dimensions"
 ],
 "C04": [
  "proved",
  "2D and 3D; edges are directed along the positive axis, so no edge appears twice in either direction"
 ],
 "C05": [
  "proved",
  "3D"
 ],
 "C06": [
  "proved",
  "all dimensions; element nodes equal node positions, closed cells cover exactly the grid box, open cells are disjoint"
 ],
 "C07": [
  "proved",
  "closed box with test_for_boundary=true, half-open box by default; the two documented/undocumented failures of the default mode are proved as *_refuted"
 ],
 "C08": [
  "partial",
  "exact for points of the closed grid box (up to the code's own 1e-19 tolerance); false for points outside of the grid (C08_outside_refuted)"
 ],
 "C09": [
  "partial",
  "validity for all points; covering and tightness for points of the grid box; the documented clipping is false when a point is outside (C09_clipped_refuted)"
 ],
 "C10": [
  "proved",
  "every history, every dimension"
 ],
 "C11": [
  "proved",
  "All 14 element types, every local point."
 ],
 "C12": [
  "proved",
  "All 14 element types, every pair of nodes; world coordinates at canonical nodes are the nodes."
 ],
 "C13": [
  "proved",
  "All 14 element types, Coquelicot is_derive."
 ],
 "C14": [
  "proved",
  "Any node table, any world dimension."
 ],
 "C15": [
  "proved",
  "Any node table, any world dimension, any local point."
 ],
 "C16": [
  "proved",
  "Quadratic fields on all quadratic types; bilinear / trilinear fields on linear tensor product types."
 ],
 "C17": [
  "partial",
  "Exact for the degree of each rule; the quadratic tetrahedron uses rounded decimals: exact for affine fields, error bound for quadratic ones, exactness refuted."
 ],
 "C18": [
  "partial",
  "Holds for 12 types, refuted for the two quadratic rectangular types (defect of the code)."
 ],
 "C22": [
  "partial",
  "Closed box for tensor product types; open enlarged simplex for simplices, so closedness at eps = 0 is refuted; RectangularQuad has no contains_local."
 ],
 "C25": [
  "proved",
  "Triangle, quad, tetrahedron, hexahedron; any nodes and local point."
 ],
 "C26": [
  "partial",
  "13 types; refuted for the quadratic rectangular hexahedron (defect of the code)."
 ],
 "C19": [
  "partial",
  "Rectangular hexahedra: full inverse both ways. Rectangular quads use the iterative local_coordinates: exact except for points within 1e-5 of the centre, which are mapped to the centre (C19_quad_near_centre_refuted)."
 ],
 "C20": [
  "proved",
  "Nodal and frame descriptions agree for linear and quadratic rectangular quads (2D, 3D) and hexahedra; constant jacobian with determinant; fitting round trip."
 ],
 "C21": [
  "partial",
  "Affine elements: exact pre-image and closest point; all elements: exact description of the result of the loop. The claim that a far point is never mapped to the centre is false (absolute first tolerance): C21_far_point_mapped_to_centre_refuted."
 ],
 "C23": [
  "proved",
  "Exact with eps=0 for every well formed box; no missed intersection for every eps>=0."
 ],
 "C24": [
  "proved",
  "Exact with eps=0, degenerate triangles included."
 ],
 "C27": [
  "partial",
  "all histories of add/remove that return; the overload taking a domain accepts a used name (refuted form recorded)"
 ],
 "C28": [
  "partial",
  "the code's loop has an empty body: exact characterisation of when removal returns, exact effect then, and a universally quantified refutation otherwise"
 ],
 "C29": [
  "partial",
  "contents are preserved by copy and move; references to the owning mesh and independence of the source are refuted"
 ],
 "C30": [
  "proved",
  ""
 ],
 "C31": [
  "partial",
  "Every embedded point is given an element whose containment test accepts it, or -1 when no element contains it; the stored position is the point except within 1e-5 of the local origin, where it is the origin (refuted for exactness; surfaces in 3D project points instead of reporting them outside)."
 ],
 "C32": [
  "proved",
  "Affine linear elements filling their space."
 ],
 "C61": [
  "proved",
  "Power identity for every velocity and force field, derivative of the position transfer, constraint rows, total force, usability."
 ],
 "C62": [
  "proved",
  "Virtual work and total for every mesh; the integrated area is the geometric one for linear triangles and parallelograms."
 ],
 "C63": [
  "partial",
  "Closed form of the applied traction for every history of steps; the reset clause is refuted: the nodal forces are emptied."
 ],
 "C64": [
  "partial",
  "upper corner proved right for every list; lower corner proved right exactly when a node other than the first attains the minimum; refuted otherwise"
 ],
 "C65": [
  "proved",
  "both dyads, entry by entry and by their action on symmetric tensors"
 ],
 "C66": [
  "partial",
  "proved for every cell type but the quadratic hexahedron, for which it is refuted for VTK's documented order and proved for the order of the repository's test file"
 ],
 "C67": [
  "partial",
  "for files with at least one point; a file without points in dimension 1 or 2 is undefined behaviour (refuted theorem)"
 ],
 "C68": [
  "proved",
  "for every grid and every enumeration of its cell types"
 ],
 "C52": [
  "proved",
  "both laws, in terms of the Cauchy-Green strain and of the deformation gradient"
 ],
 "C53": [
  "proved",
  "6x6 tangent equals the derivative of the stress, along strains and along deformation gradients; symmetric"
 ],
 "C54": [
  "proved",
  "rest state, objectivity, rigid motions, Hooke's law at rest"
 ],
 "C55": [
  "partial",
  "The unqualified claim fails after a change of the material parameters (refuted theorem): the energy is computed with the parameters of the last force or stiffness computation."
 ],
 "C56": [
  "partial",
  "C56_force_increment_partial is for meshes whose elements do not repeat a node; C56_force_increment_repeated_nodes gives, for every mesh, the derivative plus the exact error due to the repeated nodes, and C56_repeated_node_refuted a mesh where it is not zero."
 ],
 "C57": [
  "proved",
  "Resultant and moment about the origin and about any point, for meshes of non degenerate elements."
 ],
 "C58": [
  "proved",
  "Any interleaving of any distribution of the elements over threads; the critical section of the code is atomic in the model."
 ],
 "C69": [
  "proved",
  "All histories; positions keep their number."
 ],
 "C59": [
  "proved",
  "Rigid motions after any history that keeps the option on; balance after any history."
 ],
 "C60": [
  "partial",
  "The matrix added to the system is symmetric and agrees with the force increments. The claim about K() is refuted: wrong blocks, nothing below the diagonal, not recomputed when elements rotate."
 ],
 "C70": [
  "partial",
  "Proved without corotation, and with it around rest for elements whose rest frame is the world frame; refuted for other rest frames."
 ],
 "C71": [
  "partial",
  "Proved for tetrahedra; refuted for hexahedra (stiffness multiplied by the number of initialisations) and when the option corotated is switched off."
 ],
 "C41": [
  "partial",
  "All histories of calls in range that, before clearing across the storage order, compress after the last new entry (writing again an entry written before is allowed in between); refuted otherwise (stale indices in the free room hide entries)."
 ],
 "C42": [
  "partial",
  "Refuted for every matrix: the first write forgets the content. Reading before any write is right."
 ],
 "C43": [
  "proved",
  "For every compressed matrix, both storage orders; the shortcut under the condition that transposes of nonzero entries are stored, refuted without it."
 ],
 "C44": [
  "proved",
  "exact arithmetic in any ordered field, arbitrary preconditioner; the method without assembled matrix is the same computation (C44_matrix_free)"
 ],
 "C45": [
  "proved",
  "symmetric positive definite matrix and preconditioner; identity and diagonal preconditioners and projected systems shown to meet the hypotheses; also optimality in the Krylov space"
 ],
 "C46": [
  "partial",
  "refuted: a solve with nothing to do always reports failure; holds when there is something to do (C46_success_partial)"
 ],
 "C47": [
  "partial",
  "any system, any behaviour of the linear solver; with a single iteration the recorded residual is that of the initial state (see findings)"
 ],
 "C48": [
  "partial",
  "false in the code: the reference is the residual after the first iteration; refuted with witnesses and for every run"
 ],
 "C49": [
  "proved",
  "any sequence of solves and resets, any answers of the linear solver"
 ],
 "C50": [
  "proved",
  "one exact step reaches equilibrium on the free degrees of freedom, and is reported when more than one iteration is allowed"
 ],
 "C51": [
  "proved",
  "kinematics for every run, derivative and equation of motion; the single-iteration default misses the equation by h K v_n (refuted)"
 ],
 "C72": [
  "partial",
  "proved for steps with at least two iterations; false for a single iteration (refuted for every step size)"
 ],
 "C33": [
  "proved",
  "any classification of the sub-cells, any number of levels, D = 2 and 3; exact arithmetic (the validation tolerance is then never reached)"
 ],
 "C34": [
  "partial",
  "proved as long as no point comes from a sub-cell of the second level (3D: also when the tree is cut at level 0 or 1); refuted, for every cell whose first level is divided, from the second level on, and in 2D when the tree is cut"
 ],
 "C35": [
  "proved",
  "any forest of full trees (the subdivision only makes those), D = 2 and 3; also: no neighbour exactly on the border of the grid, leaves do not overlap"
 ],
 "C36": [
  "proved",
  "any types of the leaves; the consistency error is never raised and no array is left (C33_validation_passes: neither is the error of validate_grid)"
 ],
 "C37": [
  "partial",
  "proved in 3D for any types; in 2D every undefined leaf is tagged outside, which is refuted in general but agrees with the claim in the states the component reaches in 2D with an iso-surface"
 ],
 "C38": [
  "proved",
  ""
 ],
 "C39": [
  "partial",
  "proved when no corner value is exactly 0; otherwise an out-of-bounds increment is proved; the classification of the sub-cells is proved without restriction"
 ],
 "C40": [
  "partial",
  "proved for points of a single cell and for points shared by cells when the code answers; refuted on faces shared by cells of equal type and after a tessellated surface"
 ],
 "C73": [
  "partial",
  "tessellated surfaces on a new component proved in full; implicit surfaces with non-zero corner values; repeated creation only when the remembered triangles stay valid; the rest is refuted"
 ],
 "C74": [
  "partial",
  "The number of iterations, the records and the reported flag are characterised for every system, solver and configuration, and the affine case is proved. The code contradicts the rest: the first test compares a squared residual with the threshold, and failed linear solves are reported as convergence."
 ],
 "C77": [
  "partial",
  "Circle and sphere: proved. Cells of type Inside are exactly those in the disc: proved. The code ignores the length of the cylinder and drops cells that meet the disc without a corner in it."
 ],
 "C75": [
  "partial",
  "Proved for every history in which matrices of a same dimension have the same pattern, none is empty and all are symmetric (LDLT, LLT) or regular (LU); the code breaks the claim in each of the other cases (refutations)."
 ],
 "C76": [
  "partial",
  "Proved for every history in which the indices are not set while an internal domain refers to them; otherwise the code reads a moved vector or refused indices (refutations)."
 ],
 "C78": [
  "partial",
  "Proved for states whose vector a is not longer than b, with the concerned states, the exceptions and the scalar product characterised for all; a longer a keeps its end in the code."
 ],
 "C79": [
  "proved",
  ""
 ],
 "C80": [
  "partial",
  "Exact for every grid that fits the 64-bit index; the int loops visit everything iff there are fewer than 2^31 items (refuted beyond)."
 ],
 "C81": [
  "partial",
  "Creation and initialisation characterised for every scene; refuted with several topologies (crash with printLog, dependence on the template attribute and on registration order), for the reference configuration of a mesh, and without a mechanical state."
 ],
 "C82": [
  "partial",
  "Location, node positions, contains and cells_around proved for IEEE doubles with explicit error bounds, for every grid and point in the stated ranges; refuted for the tolerances, the upper sides and far-away grids."
 ],
 "C83": [
  "proved",
  "Error bounds, exactness at the nodes, interpolation and Jacobian in any order of summation proved for IEEE doubles and every element; non-negativity proved for segment, triangle, quad, hexahedron and refuted for the tetrahedron (which the statement therefore leaves out)."
 ],
 "C84": [
  "proved",
  "Definedness, completeness and locality proved for doubles and 64-bit integers within 2^28 cells of the origin; refuted far away (integer overflow) and for a zero cell size."
 ],
 "C85": [
  "proved",
  "Proved for every double, NaN and infinities included. The two _refuted theorems show that the lower bounds on the tolerance are needed."
 ],
 "C86": [
  "partial",
  "C86_control and C86_bad_input_not_converged hold for every input. The bound of C86_genuine_partial has a drift term, proportional to the number of iterations and the largest iterate; that the residual is within the tolerance without it is false of the code (C86_warm_start_refuted and the other refutations). The bound also supposes a tolerance of at least 2^-400, a squared norm of b of at most 2^1000, step lengths of at most 2^900 and a finite solution."
 ],
 "C87": [
  "partial",
  "Exact for every parallelepiped, linear or quadratic, when each given point is at least 1e-5 away from the centre or in the element. Missing: the other shapes and the points near the centre of a small element, where the claim is false of the code (the refuted theorems)."
 ],
 "C88": [
  "partial",
  "Every script that holds the mesh of each domain and container when it uses them gets all the answers its writer expects. Missing: the other scripts, for which the claim is false of the code (C88_orphan_use_refuted)."
 ],
 "C89": [
  "partial",
  "Proved: virtual work, independence of the bodies, vectors, and fixed unknowns of bodies that carry no mapped stiffness, for scenes where every fixed unknown has a diagonal entry. Missing: fixed unknowns of the other bodies, where the claim is false of the code (C89_mapped_moves_fixed_refuted), and scenes where a fixed unknown has no diagonal entry, where C41 does not apply."
 ],
 "C90": [
  "partial",
  "Proved for all histories: the eigenvalues are those of the matrix given, questions have no effect, K() is the matrix of the latest assembly and the one given to the solver, translations are in its kernel. Missing: the condition number, the stiffness of the current state, and assembling elsewhere without effect, all three false of the code (C90_condition_number_refuted, C90_inverse_refuted, C90_current_stiffness_refuted, C90_assembly_by_script_refuted, C90_simulation_disturbed_refuted). The eigenvalue solver of Eigen is a parameter."
 ],
 "C91": [
  "proved",
  "Real numbers; 2x2 and 3x3 blocks generalised to any size; indices out of range are failures (assertions of Eigen). The bodies of clearRowCol and compress of the dense wrapper are in SOFA and taken from its documentation."
 ],
 "C92": [
  "partial",
  "Refuted for RectangularHexahedron with separate nodes and for surface elements asked for in one dimension; the rest is proved. The casters and the dispatcher of pybind11 are modelled from its documented behaviour; keyword arguments are not modelled; real numbers."
 ],
 "C93": [
  "partial",
  "Semidefiniteness, the kernel as zero strain at the integration points, and rigid motions: proved for all solid meshes. That nothing else is in the kernel, and definiteness of a held body: proved for linear tetrahedra, straight quadratic tetrahedra and linear hexahedra with an open corner (all parallelepipeds among them); refuted for a single quadratic hexahedron; curved quadratic tetrahedra are missing. Real numbers."
 ],
 "C94": [
  "partial",
  "Proved for CaribouForcefield on all meshes and positions: groups, faces, affine motions, closed surfaces; volumes and orientation for straight elements. Refuted by the code: curved sides of quadratic elements and volumes of warped hexahedra; for the co-rotational force fields, orientation, motion (tetrahedra) and double drawing (hexahedra). Real numbers."
 ],
 "C95": [
  "partial",
  "Proved for all usual grids: construction, numbering of cells, nodes, edges and faces, corners, location, contains, cells_around, the exact table of answered calls, hash grids after any history. Refuted by the code: node(coordinates) and cell_coordinates_at(point) hidden, cell_at in the plane, unchecked arguments, names of two hash grids, None for other objects. Positional arguments only, real numbers."
 ],
 "C96": [
  "partial",
  "Proved for all solid meshes, both laws: formula, sign, zeros, no force where the energy is zero, rigid motions, barrier of the Neo-Hookean law; converse for meshes in one piece of linear tetrahedra, or of linear hexahedra whose box of integration points has a plane face or a corner that is not folded. Refuted by the code: quadratic elements, inverted or flattened Saint Venant-Kirchhoff bodies, Neo-Hookean bodies with a negative lambda. Missing: linear hexahedra without plane face and folded by a right angle at every corner. Real numbers."
 ],
 "C97": [
  "partial",
  "Proved: any material, linear tetrahedra and hexahedra of any shape (faces plane or not), quadratic tetrahedra that are affine images of the reference element, quadratic hexahedra with straight edges; linear elasticity (corotational force fields with the option off, any history of evaluations), with one integration point for parallelepipeds only. The code refutes the rest: quadratic tetrahedra and hexahedra with bent edges, one integration point otherwise, the corotational option. Real numbers."
 ],
 "C98": [
  "proved",
  "Any material, linear elements of any shape and straight quadratic elements; linear elasticity as in C97; tractions constant or applied in steps. Real numbers."
 ],
 "C99": [
  "partial",
  "Holds for templates, absolute links, single-type scenes and right after an initialisation; refuted for relative links without template, several types above the mapping, unmatched sizes and a topology that is initialised again."
 ],
 "C100": [
  "partial",
  "Proved for implicit surfaces; with a tessellated surface the cells that no triangle meets are missing from the table."
 ],
 "C101": [
  "partial",
  "Proved for every history with ALWAYS, and under stated conditions on the stored positions with the two other analysing strategies; the code refutes it outside of these conditions."
 ],
 "C102": [
  "partial",
  "Proved for hyperelastic force fields entirely and for moved bodies with corotation on; the code refutes it with corotation off (rotations), and with it on for scenes described in another frame."
 ],
 "C103": [
  "partial",
  "Proved for hyperelastic force fields entirely, for the order of the elements and the numbers of the nodes with the corotational ones, and for turned listings without corotation; the code refutes mirrored listings, and with corotation on turned listings."
 ],
 "C104": [
  "partial",
  "Momentum: proved for all steps and simulations without load or mass damping; with a load, and for the centre of mass, when each step does at least one iteration. The code refutes the rest: a body in free flight does not move with the default absolute threshold. Exact arithmetic in any ordered field."
 ],
 "C105": [
  "proved",
  "All parts, for any history of events since init. Exact real arithmetic."
 ],
 "C106": [
  "partial",
  "C106_affine, C106_moment, C106_affine_power and C106_seam hold without restriction on the mapped nodes. C106_follows_partial, C106_rest_partial: affine elements filling the space, nodes at 1e-5 or more from the local origins (otherwise within 1e-5, refuted beyond). C106_order_partial: simplices. Exact real arithmetic."
 ],
 "C107": [
  "partial",
  "C107_energy holds for every regular mesh, C107_inner_nodes for every mesh of linear elements. C107_volume_partial, C107_remeshing_partial: quadratic elements must be straight, because curved ones fail C97 (C97_curved_tetrahedra_refuted). C107_linear_elasticity_partial: hexahedra with one integration point must be parallelepipeds (C97_one_point_refuted), option corotated off (C97_corotated_refuted). Exact real arithmetic."
 ],
 "C108": [
  "partial",
  "Proved for hyperelastic force fields (C108_forces, C108_energy, C108_increments), corotational force fields after any history of calls (C108_corotational_*), the moduli (C108_moduli), traction loads in 3D (C108_loads) and a hyperelastic body with its loads (C108_scene). Refuted for the intersection tests (C108_intersections_refuted). The Newton-Raphson solver is covered as long as no displacement is negligible (C108_newton_partial; C108_static_partial for the static solver with a direct linear solver and fixed unknowns), and refuted otherwise (C108_newton_refuted). Exact real arithmetic; the linear solvers are hypotheses."
 ]
}
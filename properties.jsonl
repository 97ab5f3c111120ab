{"id": "C01", "title": "Multi-index numbering is a graded bijection", "statement": "MultiIndex([a,b]).idx assigns distinct numbers to distinct pairs, every nonnegative integer is the idx of exactly one pair, pairs of smaller total order come first, and set_from_idx(k) (with an exact square root) rebuilds the pair whose idx is k.", "quantifier": "all pairs of nonnegative integers and all nonnegative idx", "why_tests_cant": "The index space is infinite; a test can only sample it, and a single collision makes two different monomials merge.", "anchors": ["puncturedfem/locfun/poly/multi_index.py: MultiIndex.set, MultiIndex.set_from_idx, MultiIndex.__eq__"]}
{"id": "C02", "title": "Index decoding survives the floating-point square root", "statement": "set_from_idx(k), which takes the square root in IEEE double precision, yields the multi-index whose idx is k.", "quantifier": "all nonnegative integers k", "why_tests_cant": "The first failure lies just above 2^53, far beyond any sampled index; only a rounding-error argument covers the range below it.", "anchors": ["puncturedfem/locfun/poly/multi_index.py: MultiIndex.set_from_idx"]}
{"id": "C03", "title": "Polynomials stay in canonical form", "statement": "However a Polynomial is produced by the constructor, +, -, *, /, **, compose, partial_deriv, laplacian or anti_laplacian, its list of monomials is strictly sorted by multi-index, has no repeated multi-index and no coefficient of magnitude below 1e-12.", "quantifier": "all coefficient lists and all finite expressions over the operators", "why_tests_cant": "The invariant is inductive over arbitrarily long chains of operations.", "anchors": ["puncturedfem/locfun/poly/poly.py: Polynomial.set, Polynomial.consolidate, Polynomial.__add__, Polynomial.__mul__, Polynomial.partial_deriv"]}
{"id": "C04", "title": "Polynomial addition and scaling act on values", "statement": "(p+q)(x,y), (p-q)(x,y), (-p)(x,y), (c*p)(x,y), (p/c)(x,y) and p + c agree with the same operations on the values, exactly when no resulting coefficient is below the 1e-12 cutoff and within the sum of the dropped terms otherwise.", "quantifier": "all polynomials p, q, all scalars c, all real points", "why_tests_cant": "Universally quantified over polynomials of any size and over real points.", "anchors": ["puncturedfem/locfun/poly/poly.py: Polynomial.__add__, Polynomial.__radd__, Polynomial.__iadd__, Polynomial.__sub__, Polynomial.__rsub__, Polynomial.__neg__, Polynomial.__truediv__, Polynomial.__call__"]}
{"id": "C05", "title": "Polynomial multiplication is the Cauchy product", "statement": "The coefficient of x^a y^b in p*q is the sum of products of coefficients over all splittings of (a,b), with terms below 1e-12 dropped; when nothing is dropped (p*q)(x,y) = p(x,y) q(x,y), and multiplication is commutative and distributive.", "quantifier": "all polynomials and all points", "why_tests_cant": "Needs an argument for arbitrarily many terms and repeated exponents.", "anchors": ["puncturedfem/locfun/poly/poly.py: Polynomial.__mul__, Polynomial.__rmul__", "puncturedfem/locfun/poly/monomial.py: Monomial.__mul__", "puncturedfem/locfun/poly/multi_index.py: MultiIndex.__add__"]}
{"id": "C06", "title": "partial_deriv and grad return the true partial derivatives", "statement": "At every point the function computed by p.partial_deriv('x') (resp. 'y') is the calculus derivative of the function computed by p in that variable; any other variable name is rejected.", "quantifier": "all canonical polynomials, all real points, all variable strings", "why_tests_cant": "A derivative is a limit statement at uncountably many points.", "anchors": ["puncturedfem/locfun/poly/poly.py: Polynomial.partial_deriv, Polynomial.grad", "puncturedfem/locfun/poly/monomial.py: Monomial.partial_deriv"]}
{"id": "C07", "title": "laplacian is the sum of second partial derivatives", "statement": "p.laplacian() evaluates to p_xx + p_yy (second derivatives in the calculus sense) at every point, up to coefficients below 1e-12.", "quantifier": "all canonical polynomials and points", "why_tests_cant": "Limit statement over all polynomials and points.", "anchors": ["puncturedfem/locfun/poly/poly.py: Polynomial.laplacian"]}
{"id": "C08", "title": "anti_laplacian is a right inverse of the Laplacian", "statement": "The polynomial P returned by p.anti_laplacian() satisfies Delta P = p: exactly if coefficients are multiples of a grid coarse enough that the 1e-12 cutoff never triggers, for polynomials of every degree.", "quantifier": "all polynomials of any degree (exactness under an explicit lattice condition)", "why_tests_cant": "The closed-form series has a degree-dependent number of terms; tests check a few degrees.", "anchors": ["puncturedfem/locfun/poly/poly.py: Polynomial.anti_laplacian"]}
{"id": "C09", "title": "Powers and composition of polynomials", "statement": "p**n evaluates to the n-th power and p.compose(q1,q2)(x,y) = p(q1(x,y), q2(x,y)) whenever no coefficient is dropped; negative or non-integer exponents are rejected.", "quantifier": "all polynomials, exponents, inner polynomials and points", "why_tests_cant": "Unbounded exponent and number of terms.", "anchors": ["puncturedfem/locfun/poly/poly.py: Polynomial.pow, Polynomial.compose, Polynomial.__pow__"]}
{"id": "C10", "title": "Polynomial equality is an equivalence", "statement": "p == q is reflexive, symmetric and transitive on canonical polynomials and holds exactly when both have the same exponents with coefficients closer than 1e-12.", "quantifier": "all canonical polynomials", "why_tests_cant": "Transitivity is a statement about all triples; the tolerance makes it fail only for specially spaced coefficients.", "anchors": ["puncturedfem/locfun/poly/poly.py: Polynomial.__eq__", "puncturedfem/locfun/poly/monomial.py: Monomial.__eq__"]}
{"id": "C11", "title": "In-place addition terminates and equals addition", "statement": "p += q terminates and leaves p equal to the former p + q, for any q, including when q is the same object as p.", "quantifier": "all polynomials p, q, including aliasing", "why_tests_cant": "Non-termination cannot be observed by a terminating test.", "anchors": ["puncturedfem/locfun/poly/poly.py: Polynomial.__iadd__, Polynomial.add_monomials"]}
{"id": "C12", "title": "Array evaluation of polynomials is pointwise", "statement": "Evaluating p on arrays of coordinates gives, entry by entry, the value at that entry; scalars may be combined with arrays in either argument.", "quantifier": "all polynomials, all array shapes and contents", "why_tests_cant": "All array sizes and all mixed argument kinds.", "anchors": ["puncturedfem/locfun/poly/poly.py: Polynomial.__call__", "puncturedfem/locfun/poly/monomial.py: Monomial.eval"]}
{"id": "C13", "title": "Polynomial arithmetic does not disturb its operands", "statement": "Evaluating +, -, *, /, **, compose, derivatives never changes the value of any previously existing polynomial, and a copy() is independent of the original under later updates of its monomials.", "quantifier": "all heaps of polynomial objects and all operation sequences", "why_tests_cant": "Aliasing bugs depend on the history of object sharing.", "anchors": ["puncturedfem/locfun/poly/poly.py: Polynomial.copy, Polynomial.__add__", "puncturedfem/locfun/poly/monomial.py: Monomial.copy, Monomial.__neg__, Monomial.set_coef"]}
{"id": "C14", "title": "Legendre polynomials", "statement": "legendre_polynomials(d)[n] is the n-th Legendre polynomial for every n <= d: it satisfies Bonnet's recurrence, equals 1 at 1 and (-1)^n at -1, and P_n' - P_{n-2}' = (2n-1) P_{n-1}.", "quantifier": "all degrees and all points", "why_tests_cant": "The recurrence is inductive in the degree.", "anchors": ["puncturedfem/locfun/poly/legendre.py: legendre_polynomials"]}
{"id": "C15", "title": "Integrated Legendre polynomials and tensor products", "statement": "integrated_legendre_polynomials(d)[n] for n >= 2 vanishes at both endpoints of [-1,1] and has derivative proportional to the Legendre polynomial of degree n-1; the tensor product list enumerates exactly the (d+1)(d+2)/2 pairs m+n <= d in order.", "quantifier": "all degrees", "why_tests_cant": "Inductive in the degree.", "anchors": ["puncturedfem/locfun/poly/legendre.py: integrated_legendre_polynomials, integrated_legendre_tensor_products, legendre_tensor_products, swap_coordinates_of_poly_argument"]}
{"id": "C16", "title": "Barycentric coordinates are nodal", "statement": "The three polynomials returned by barycentric_coordinates(z0,z1,z2) sum to one and satisfy ell_j(z_k) = delta_jk for every nondegenerate triangle; those built from an edge take the values 1,0 and 0,1 at its endpoints and the third vanishes at both.", "quantifier": "all triples of points; all edges", "why_tests_cant": "All triangles of either orientation.", "anchors": ["puncturedfem/locfun/poly/barycentric.py: barycentric_coordinates, barycentric_coordinates_edge"]}
{"id": "C17", "title": "Edge space functions match at endpoints", "statement": "For an edge with distinct endpoints every edge-function trace vanishes at both endpoints, the two vertex-function traces are 1 at their own endpoint and 0 at the other, and the retained functions are a sublist (in order, without repetition) of the spanning set.", "quantifier": "all parameterized edges and degrees", "why_tests_cant": "All geometries and degrees; conformity of the finite element space rests on it.", "anchors": ["puncturedfem/locfun/edge_space.py: EdgeSpace.build_spanning_set, EdgeSpace._reduce_to_basis, EdgeSpace._get_basis_index_set"]}
{"id": "C18", "title": "Integrating a polynomial over a cell via the boundary", "statement": "integrate_poly_over_mesh_cell(p,K) is linear in p and its boundary integrand is the normal component of a field whose divergence is p.", "quantifier": "all polynomials and cells", "why_tests_cant": "Quantified over all polynomials, points and boundary samplings.", "anchors": ["puncturedfem/locfun/poly/integrate_poly.py: integrate_poly_over_mesh_cell"]}
{"id": "C19", "title": "Trapezoid rule nodes and exactness", "statement": "Quad('trap',n) has 2n+1 equally spaced nodes on [0,2pi] and unit weights, and the resulting periodic sum is exact for trigonometric polynomials of degree below 2n and aliases degree 2n.", "quantifier": "all n >= 4 and all trigonometric degrees", "why_tests_cant": "All n; exactness is an identity between sums of sines and cosines.", "anchors": ["puncturedfem/mesh/quad.py: Quad.__init__, Quad.trap"]}
{"id": "C20", "title": "Kress reparameterization", "statement": "For every integer p >= 2 the Kress nodes start at 0, end at 2pi, increase strictly, are symmetric about pi, and the weights are exactly the derivative of the node map with respect to the uniform parameter, positive inside and zero at the ends.", "quantifier": "all p >= 2, all sampling parameters in [0,2pi]", "why_tests_cant": "Real-analysis statement over a continuum and all exponents p.", "anchors": ["puncturedfem/mesh/quad.py: Quad.kress"]}
{"id": "C21", "title": "Martensen weights", "statement": "Quad('mart',n) weights are symmetric and annihilate/reproduce trigonometric polynomials as the logarithmic-kernel rule requires; requesting the documented long name 'martensen' gives the same rule.", "quantifier": "all n and trigonometric degrees", "why_tests_cant": "Trigonometric identities for all n; name dispatch.", "anchors": ["puncturedfem/mesh/quad.py: Quad.__init__, Quad.martensen"]}
{"id": "C22", "title": "Curve libraries supply true derivatives", "statement": "For every curve of the edge library (line, circle, ellipse, bean, teardrop, cartioid, circular arc, circular arc by degrees, sine wave) DX and DDX are the first and second derivatives of X at every parameter value and for every admissible option value.", "quantifier": "all parameters t and all admissible options", "why_tests_cant": "Derivative statements over a continuum of t and of options.", "anchors": ["puncturedfem/mesh/edgelib/line.py: X, DX, DDX", "puncturedfem/mesh/edgelib/circle.py: X, DX, DDX", "puncturedfem/mesh/edgelib/ellipse.py: X, DX, DDX", "puncturedfem/mesh/edgelib/bean.py: X, DX, DDX", "puncturedfem/mesh/edgelib/teardrop.py: X, DX, DDX", "puncturedfem/mesh/edgelib/cartioid.py: X, DX, DDX", "puncturedfem/mesh/edgelib/circular_arc.py: X, DX, DDX", "puncturedfem/mesh/edgelib/circular_arc_deg.py: X, DX, DDX", "puncturedfem/mesh/edgelib/sine_wave.py: X, DX, DDX"]}
{"id": "C23", "title": "Curve endpoints and closure", "statement": "Open library curves run from (0,0) to (1,0) for parameters 0 to 2pi and closed library curves return to their starting point, for all admissible options; inadmissible options are rejected.", "quantifier": "all admissible options", "why_tests_cant": "Continuum of options.", "anchors": ["puncturedfem/mesh/edgelib/line.py: X", "puncturedfem/mesh/edgelib/circular_arc.py: X", "puncturedfem/mesh/edgelib/sine_wave.py: X", "puncturedfem/mesh/edgelib/circle.py: X", "puncturedfem/mesh/edgelib/teardrop.py: X", "puncturedfem/mesh/edgelib/cartioid.py: X", "puncturedfem/mesh/edgelib/bean.py: X"]}
{"id": "C24", "title": "Library curves are regular", "statement": "The speed |X'(t)| used as a divisor when an edge is parameterized never vanishes on the parameter interval.", "quantifier": "all parameters in [0,2pi] and all admissible options", "why_tests_cant": "Continuum of parameters; a zero yields nan samples.", "anchors": ["puncturedfem/mesh/edge.py: Edge.parameterize", "puncturedfem/mesh/edgelib/circle.py: DX", "puncturedfem/mesh/edgelib/ellipse.py: DX", "puncturedfem/mesh/edgelib/cartioid.py: DX"]}
{"id": "C25", "title": "Parameterized edges carry consistent geometry", "statement": "After parameterize, at every sample the tangent is the unit vector along the derivative of the transformed curve, the normal is its clockwise quarter turn, dx_norm is the speed times the quadrature weight, and curvature equals the signed curvature.", "quantifier": "all curves, quadratures, parameter intervals, and diaries of transformations", "why_tests_cant": "Depends on arbitrary histories of geometric transformations.", "anchors": ["puncturedfem/mesh/edge.py: Edge.parameterize, Edge.run_transform_diary"]}
{"id": "C26", "title": "Rigid motions, reflections and dilations transform all stored geometry consistently", "statement": "translate, rotate, reflect and dilate map the stored samples, tangents, normals, speeds and curvature to those of the transformed curve.", "quantifier": "all transformation parameters and edges", "why_tests_cant": "All matrices and dilation factors, including negative ones.", "anchors": ["puncturedfem/mesh/edge.py: Edge.translate, Edge.rotate, Edge.dilate, Edge.apply_orthogonal_transformation, Edge.reflect_across_x_axis, Edge.reflect_across_y_axis"]}
{"id": "C27", "title": "reverse_orientation traverses the same curve backwards", "statement": "reverse_orientation twice restores the edge; once, it reverses the sample order, negates tangents, normals and curvature, keeps speeds, and leaves every symmetric quadrature integral unchanged.", "quantifier": "all parameterized edges", "why_tests_cant": "All sizes and data.", "anchors": ["puncturedfem/mesh/edge.py: Edge.reverse_orientation"]}
{"id": "C28", "title": "join_points places the endpoints", "statement": "After join_points(a,b) the first sample is exactly a and the last exactly b, ratios of distances are preserved and orientation is kept; coincident endpoints are rejected.", "quantifier": "all sampled curves with distinct endpoints and all distinct points a, b", "why_tests_cant": "Continuum of positions including every quadrant of the angle computation.", "anchors": ["puncturedfem/mesh/edge.py: Edge.join_points", "puncturedfem/mesh/transform.py: join_points"]}
{"id": "C29", "title": "Re-parameterizing an edge reproduces it", "statement": "Calling parameterize again (with or without deparameterize) gives the same samples as the first call, for any history of transformations.", "quantifier": "all transformation histories and numbers of re-parameterizations", "why_tests_cant": "History-dependent: needs a non-loop edge, an extra transformation and a second parameterization.", "anchors": ["puncturedfem/mesh/edge.py: Edge.parameterize, Edge.run_transform_diary, Edge.join_points, Edge.set_verts"]}
{"id": "C30", "title": "Stored vertices match the sampled endpoints", "statement": "Whenever an edge is parameterized its anchor and endpnt are its first and last sampled points.", "quantifier": "all edges and transformation histories", "why_tests_cant": "Depends on transformation history.", "anchors": ["puncturedfem/mesh/edge.py: Edge.set_verts, Edge.translate, Edge.rotate"]}
{"id": "C31", "title": "Splitting an edge retraces it", "statement": "split_edge returns consecutive pieces that share endpoints and together trace the original curve; the number of pieces is one more than the number of split points, in increasing parameter order.", "quantifier": "all edges, diaries and split parameters", "why_tests_cant": "All split lists and histories.", "anchors": ["puncturedfem/mesh/split_edge.py: split_edge, _split_edge_multiple, _split_edge_single"]}
{"id": "C32", "title": "split_edge argument handling", "statement": "Missing, out-of-range, empty or non-float split specifications are rejected with ValueError and the caller's list is left unchanged.", "quantifier": "all argument values", "why_tests_cant": "All lists.", "anchors": ["puncturedfem/mesh/split_edge.py: split_edge, _split_edge_multiple"]}
{"id": "C33", "title": "Edge integration", "statement": "integrate_over_edge is linear and monotone in its values, equals the trapezoid rule of value times speed, and ignoring the (zero-weight) endpoint does not change the result.", "quantifier": "all sample values and sizes", "why_tests_cant": "All array sizes and contents.", "anchors": ["puncturedfem/mesh/edge.py: Edge.integrate_over_edge, Edge.integrate_over_edge_preweighted, Edge.multiply_by_dx_norm"]}
{"id": "C34", "title": "Dot products with tangent and normal", "statement": "dot_with_tangent / dot_with_normal return the pointwise dot products both with and without the endpoint and reject arrays of the wrong length.", "quantifier": "all sample arrays and both flag values", "why_tests_cant": "All sizes; slicing by a negative zero bound.", "anchors": ["puncturedfem/mesh/edge.py: Edge.dot_with_tangent, Edge.dot_with_normal"]}
{"id": "C35", "title": "Bounding boxes contain the points", "statement": "get_bounding_box returns a box that contains every sample point and has positive width and height unless all points coincide.", "quantifier": "all nonempty point sets", "why_tests_cant": "Degenerate geometries at the tolerance boundary.", "anchors": ["puncturedfem/mesh/bounding_box.py: get_bounding_box"]}
{"id": "C36", "title": "Cell boundary is decomposed into closed contours", "statement": "Building a MeshCell either raises EmbeddingError or produces components that contain each given edge exactly once, with each edge ending where the next one starts cyclically; an error is raised exactly when endpoints are not matched one-to-one.", "quantifier": "all lists of edges", "why_tests_cant": "All numbers of edges and arrangements; termination of the traversal.", "anchors": ["puncturedfem/mesh/cell.py: MeshCell.get_edge_endpoint_incidence, MeshCell.find_boundary_components, MeshCell.find_edge_orientations"]}
{"id": "C37", "title": "Sample indexing on contours and cells", "statement": "Contour and cell index tables partition [0,num_pts): evaluating a function on the boundary yields, at every index, the function at the corresponding non-repeated sample, contour by contour and edge by edge.", "quantifier": "all numbers of edges, contours and samples", "why_tests_cant": "All sizes.", "anchors": ["puncturedfem/mesh/closed_contour.py: ClosedContour.find_num_pts, ClosedContour.find_local_vert_idx, ClosedContour.evaluate_function_on_contour", "puncturedfem/mesh/cell.py: MeshCell._find_component_start_idx, MeshCell.evaluate_function_on_boundary, MeshCell.get_boundary_points"]}
{"id": "C38", "title": "Closest-vertex indices", "statement": "closest_vert_idx maps every boundary sample to the index of a corner of the edge containing the sample (the start on the first half, the end on the second half), on every component of the boundary.", "quantifier": "all cells, including cells with holes", "why_tests_cant": "All sizes and numbers of holes.", "anchors": ["puncturedfem/mesh/closed_contour.py: ClosedContour.find_closest_local_vertex_index", "puncturedfem/mesh/cell.py: MeshCell._find_closest_vert_idx"]}
{"id": "C39", "title": "The outer boundary becomes the first component", "statement": "After parameterization the first component of a cell is the one that encloses all others, for every order in which the edges were listed.", "quantifier": "all cells with holes and all edge orders", "why_tests_cant": "Depends on the order of edges; needs two or more components.", "anchors": ["puncturedfem/mesh/cell.py: MeshCell._find_outer_boundary"]}
{"id": "C40", "title": "Boundary integration over a cell", "statement": "integrate_over_boundary equals the sum over edges of the edge trapezoid sums; it is linear, and reversing or reordering components does not change it.", "quantifier": "all cells and sample values", "why_tests_cant": "All sizes; also cells mixing quadratures of different order.", "anchors": ["puncturedfem/mesh/cell.py: MeshCell.integrate_over_boundary_preweighted", "puncturedfem/mesh/closed_contour.py: ClosedContour.integrate_over_closed_contour_preweighted"]}
{"id": "C41", "title": "Interior points are interior", "statement": "Every interior point of a parameterized cell lies inside the outer contour, outside every hole and no closer to the sampled boundary than the stated tolerance; no admissible grid point is lost.", "quantifier": "all cells, tolerances and grid sizes", "why_tests_cant": "All geometries and grid sizes (including non-square grids).", "anchors": ["puncturedfem/mesh/cell.py: MeshCell.generate_interior_points, MeshCell.is_in_interior", "puncturedfem/mesh/closed_contour.py: ClosedContour.find_interior_point"]}
{"id": "C42", "title": "Triangulation masks", "statement": "The boundary mask hides exactly the triangles having a vertex that is a boundary sample, and the hole mask never keeps a triangle having an edge midpoint outside the domain unless that edge joins consecutive boundary samples.", "quantifier": "all triangulations and boundaries", "why_tests_cant": "All point configurations; coincidences of single coordinates.", "anchors": ["puncturedfem/mesh/cell.py: _get_boundary_mask, _point_is_on_boundary_simple, _get_hole_mask, _edge_is_on_boundary_segment"]}
{"id": "C43", "title": "Cells sharing an edge do not interfere", "statement": "Parameterizing one cell leaves the boundary samples of a previously parameterized neighbouring cell unchanged.", "quantifier": "all meshes and orders of parameterization", "why_tests_cant": "Depends on the order in which cells sharing Edge objects are parameterized.", "anchors": ["puncturedfem/mesh/closed_contour.py: ClosedContour.parameterize", "puncturedfem/mesh/edge.py: Edge.reverse_orientation", "puncturedfem/mesh/planar_mesh.py: PlanarMesh.get_cell"]}
{"id": "C44", "title": "Mesh index tables", "statement": "A PlanarMesh holds each edge once with its position as idx, and its cell and vertex index lists are strictly increasing and contain exactly the nonnegative indices that occur (vertices of non-loop edges only); edges in no cell are rejected.", "quantifier": "all edge lists", "why_tests_cant": "All sizes and duplicates.", "anchors": ["puncturedfem/mesh/planar_mesh.py: PlanarMesh.add_edge, PlanarMesh._build_cell_idx_list, PlanarMesh._build_vert_idx_list, PlanarMesh._find_edge_global_index"]}
{"id": "C45", "title": "Cell extraction and boundary tests", "statement": "get_cell(c) is built from exactly the edges bordering cell c in mesh order, and an edge or vertex is on the boundary iff it is (an endpoint of) an edge bordering only one cell.", "quantifier": "all meshes and indices", "why_tests_cant": "All meshes.", "anchors": ["puncturedfem/mesh/planar_mesh.py: PlanarMesh.get_cell, PlanarMesh.vert_is_on_boundary, PlanarMesh.edge_is_on_boundary, PlanarMesh.get_abs_cell_idx"]}
{"id": "C46", "title": "Pegboard mesh topology", "statement": "pegboard builds, for every size, a mesh in which each cell has four sides and one circular hole forming a closed counterclockwise boundary, interior sides are shared by exactly two cells, and size=(m,n) has m cells in x and n cells in y as documented.", "quantifier": "all sizes", "why_tests_cant": "All grid sizes.", "anchors": ["puncturedfem/mesh/meshlib/pegboard.py: pegboard, _get_verts, _get_edges"]}
{"id": "C47", "title": "Global numbering is a bijection", "statement": "get_global_idx maps the vertex, edge and bubble keys of a mesh one-to-one onto 0..num_funs-1; two cells give the same number to a function exactly when it is the same vertex or edge function; invalid keys are rejected.", "quantifier": "all meshes, degrees and edge-space sizes", "why_tests_cant": "All sizes; collisions would silently merge unknowns.", "anchors": ["puncturedfem/solver/globfunsp.py: GlobalFunctionSpace.get_global_idx, GlobalFunctionSpace._compute_edge_fun_cumsum, GlobalFunctionSpace._compute_dimension", "puncturedfem/solver/globkey.py: GlobalKey"]}
{"id": "C48", "title": "Assembly sums cell contributions", "statement": "The assembled stiffness and mass matrices are symmetric and each entry is the sum, over cells and pairs of local functions with those global indices, of the local inner products; rows not on the boundary satisfy glob = D*stiffness + R*mass and the right-hand side sums local loads.", "quantifier": "all meshes, degrees and inner-product values", "why_tests_cant": "All sizes.", "anchors": ["puncturedfem/solver/solver.py: Solver._build_values_and_indexes, Solver._compute_and_set_matrix_values, Solver._build_matrix_and_rhs", "puncturedfem/solver/bilinear_form.py: BilinearForm.eval_with_h1_and_l2"]}
{"id": "C49", "title": "Homogeneous Dirichlet conditions are imposed", "statement": "Every solution of the assembled system vanishes at all boundary degrees of freedom, and the remaining equations are the unmodified interior equations; boundary rows are identity rows.", "quantifier": "all meshes and data", "why_tests_cant": "All sizes; number of cells meeting at a boundary vertex.", "anchors": ["puncturedfem/solver/solver.py: Solver._impose_zero_dirichlet_bc, Solver._zero_mat_row, Solver._set_rhs_from_key"]}
{"id": "C50", "title": "Solution access and restriction to cells", "statement": "get_solution returns the solution, solving first if necessary; the coefficients on a cell are the global coefficients of its functions in basis order and the linear combination on the cell uses all of them.", "quantifier": "all solver states and coefficient vectors", "why_tests_cant": "State-dependent; coefficients near the cutoff.", "anchors": ["puncturedfem/solver/solver.py: Solver.get_solution, Solver.get_coef_on_mesh_cell, Solver.compute_linear_combo_on_mesh_cell"]}
{"id": "C51", "title": "Dirichlet traces hold prescribed values", "statement": "Setting a trace from values, functions or polynomials on edges stores, at every sample of every edge, the prescribed value there, whatever mix of scalars, arrays and functions is given as documented.", "quantifier": "all edge lists, values and functions", "why_tests_cant": "All sizes and mixtures.", "anchors": ["puncturedfem/locfun/trace.py: DirichletTrace.set_trace_values, DirichletTrace.set_funcs, DirichletTrace.find_values, DirichletTrace.set_funcs_from_polys"]}
{"id": "C52", "title": "Trace arithmetic is linear", "statement": "Sums, differences, scalar multiples and quotients of traces act pointwise on values and on normal/tangential derivatives; derivative data is kept exactly when both operands have it.", "quantifier": "all traces and scalars", "why_tests_cant": "All sizes and combinations of present/missing data.", "anchors": ["puncturedfem/locfun/trace.py: DirichletTrace.__add__, DirichletTrace.__mul__, DirichletTrace.__sub__, DirichletTrace.__truediv__"]}
{"id": "C53", "title": "Local functions split into polynomial plus harmonic part", "statement": "A LocalPoissonFunction with Laplacian f and trace g has trace exactly g, polynomial part with Laplacian f, and arithmetic on such functions is linear in both parts.", "quantifier": "all polynomials, traces, scalars", "why_tests_cant": "All functions.", "anchors": ["puncturedfem/locfun/local_poisson.py: LocalPoissonFunction.__init__, LocalPoissonFunction.__add__, LocalPoissonFunction.__mul__, LocalPoissonFunction.get_trace_values"]}
{"id": "C54", "title": "Inner products are bilinear and consistent", "statement": "get_h1_semi_inner_prod and get_l2_inner_prod of local functions are bilinear, decompose into the polynomial/harmonic blocks, and mixed products do not depend on the order of the arguments.", "quantifier": "all local functions and boundary data", "why_tests_cant": "All sizes and data.", "anchors": ["puncturedfem/locfun/local_poisson.py: LocalPoissonFunction.get_h1_semi_inner_prod, LocalPoissonFunction.get_l2_inner_prod", "puncturedfem/locfun/local_harmonic.py: LocalHarmonic.get_h1_semi_inner_prod, LocalHarmonic.get_l2_inner_prod", "puncturedfem/locfun/local_polynomial.py: LocalPolynomial.get_h1_semi_inner_prod, LocalPolynomial.get_l2_inner_prod"]}
{"id": "C55", "title": "Anti-Laplacian of a harmonic function", "statement": "The combination (x1 rho + x2 rho_hat)/4 has Laplacian equal to the given harmonic function and the gradient used by the code; the logarithmic corrections likewise have the Laplacians log|x-xi| and the rational functions they compensate.", "quantifier": "all harmonic functions and points, all centers", "why_tests_cant": "Differential identities over a continuum.", "anchors": ["puncturedfem/locfun/antilap.py: _antilap_from_components, get_anti_laplacian_harmonic_multiply_connected"]}
{"id": "C56", "title": "Interior values from boundary values", "statement": "The interior value and gradient integrands equal the Cauchy integral formula of phi + i phi_hat and its derivative.", "quantifier": "all boundary data and interior points", "why_tests_cant": "Continuum of points.", "anchors": ["puncturedfem/locfun/local_poisson.py: LocalPoissonFunction.compute_interior_values"]}
{"id": "C57", "title": "Spectral differentiation", "statement": "fft_derivative is the exact derivative of the trigonometric interpolant, is linear, and fft_antiderivative inverts it up to the mean for every number of samples.", "quantifier": "all sample counts and periodic data", "why_tests_cant": "All sizes; even counts have a Nyquist mode.", "anchors": ["puncturedfem/locfun/fft_deriv.py: fft_derivative, fft_antiderivative"]}
{"id": "C58", "title": "Boundary integral operators respect constants", "statement": "The double layer operator annihilates constant data on a simply connected cell, the augmented operator maps constants to themselves times the perimeter, and both are linear.", "quantifier": "all cells and densities", "why_tests_cant": "All sizes and kernels.", "anchors": ["puncturedfem/locfun/nystrom.py: NystromSolver.linop4doublelayer"]}
{"id": "C59", "title": "Local space has the right dimension and functions", "statement": "A LocalPoissonSpace of degree p has p(p-1)/2 bubbles, one function per distinct vertex and one per edge function, each carrying its own key, and vertex functions of adjacent edges agree at the shared vertex.", "quantifier": "all cells and degrees", "why_tests_cant": "All sizes.", "anchors": ["puncturedfem/locfun/local_space.py: LocalPoissonSpace._build_bubble_funs, LocalPoissonSpace._build_vert_funs, LocalPoissonSpace._build_edge_funs"]}
{"id": "C60", "title": "Vertex arithmetic and equality", "statement": "Vert addition, subtraction, scaling and division act componentwise, division by zero is rejected, and equality (distance below 1e-12) is reflexive, symmetric and transitive.", "quantifier": "all vertices and scalars", "why_tests_cant": "Transitivity quantifies over all triples.", "anchors": ["puncturedfem/mesh/vert.py: Vert.__eq__, Vert.__add__, Vert.__sub__, Vert.__mul__, Vert.__truediv__"]}
{"id": "C61", "title": "Edge-space reduction keeps an independent, near-spanning set", "statement": "The pivoted Cholesky selection terminates for every matrix, returns strictly increasing positions, and for a symmetric matrix the selected principal submatrix is nonsingular while every function is within the tolerance (in the matrix's quadratic form) of the span of the selected ones.", "quantifier": "all matrices of all sizes and all nonnegative tolerances", "why_tests_cant": "Every size and every rank pattern.", "anchors": ["puncturedfem/locfun/edge_space.py: EdgeSpace._get_basis_index_set, EdgeSpace._reduce_to_basis, EdgeSpace._get_gram_matrix"]}
{"id": "C62", "title": "Piecewise polynomials and polynomial values on edges", "statement": "PiecewisePolynomial accepts exactly integer num_polys >= 1 and idx >= 0; eval_on_edges returns the values of each polynomial at the samples of its edge, edge after edge, and refuses a wrong number of edges; get_poly_vals returns one row per polynomial with its value at each point and refuses coordinates of different lengths.", "quantifier": "all polynomials, all lists of sampled edges, all points", "why_tests_cant": "The number of edges and samples and the polynomials are unbounded.", "anchors": ["puncturedfem/locfun/poly/piecewise_poly.py: PiecewisePolynomial.eval_on_edges, PiecewisePolynomial.set_idx, PiecewisePolynomial.set_num_polys", "puncturedfem/locfun/poly/poly_eval.py: get_poly_vals, get_poly_traces_edge"]}
{"id": "C63", "title": "The deprecated LocalFunction agrees with LocalPoissonFunction", "statement": "For the same solver, Laplacian and trace, LocalFunction holds the same polynomial part, harmonic trace, normal derivative, conjugate, logarithmic coefficients and biharmonic part as LocalPoissonFunction; its inner products are the same numbers; without the biharmonic part the L2 product raises ValueError; interior values can be computed on request.", "quantifier": "all cells, solvers, polynomials and boundary data", "why_tests_cant": "Equality of two implementations over all inputs.", "anchors": ["puncturedfem/locfun/locfun.py: LocalFunction.__init__, LocalFunction.get_h1_semi_inner_prod, LocalFunction.get_l2_inner_prod, LocalFunction.compute_interior_values"]}
{"id": "C64", "title": "A script assembles the inner products of the local functions it builds", "statement": "A run of PlanarMesh, GlobalFunctionSpace and Solver on new edges assembles, cell by cell, the H1 and L2 inner products of the local Poisson functions of that cell and their L2 products with the right-hand side. The local functions are computed on edges sampled for that cell, with the edge spaces of the mesh in the order of the edges of the cell, whatever samples earlier cells left. The run ends if every cell's local space can be built.", "quantifier": "all meshes of new edges, degrees, quadratures, bilinear forms, external solvers and orders of set iteration", "why_tests_cant": "Meshes, forms and the state left by earlier cells are unbounded.", "anchors": ["puncturedfem/solver/bilinear_form.py: BilinearForm", "puncturedfem/solver/globfunsp.py: GlobalFunctionSpace.build_edge_spaces, GlobalFunctionSpace.build_local_function_space", "puncturedfem/solver/solver.py: Solver.assemble, Solver._build_values_and_indexes"]}
{"id": "C65", "title": "Plot windows enclose what is drawn, and mesh plots sample exactly the edges that need it", "statement": "The axis limits of a plot are the least and greatest coordinates of the samples of its edges, widened by the padding, so every sample lies in the window and the figure has the aspect ratio of the samples. A saved figure's directory exists or is made first. A mesh plot samples the edges without samples, or all of them if asked, and leaves the others as they are. The arrows along an edge lead from each sample to the next.", "quantifier": "all lists of sampled edges, paddings, heights, file names and heaps", "why_tests_cant": "Edges, paddings and file names are unbounded, and pictures are checked by eye.", "anchors": ["puncturedfem/plot/plot_util.py: save_figure, get_axis_limits, get_figure_size", "puncturedfem/plot/mesh_plot.py: MeshPlot.__init__, MeshPlot._plot_edge"]}
{"id": "C66", "title": "A plot of a solution covers all cells with their true ranges, on the edges the run left", "statement": "GlobalFunctionPlot takes coefficients of the right length, else the solution of the solver, else raises. It holds one function per cell in the order of the cells, and its colour ranges are the least and greatest values, gradient components and gradient norms over all cells. After a run every edge of the mesh is sampled, so the window of the plot can be computed and holds all of them. Each cell should still find its edges as they were when its functions were computed.", "quantifier": "all meshes of new edges, coefficients, functions, paddings, external solvers", "why_tests_cant": "Meshes and functions are unbounded; pictures are checked by eye.", "anchors": ["puncturedfem/plot/globfun_plot.py: GlobalFunctionPlot.set_coefficients, GlobalFunctionPlot._build_global_function, GlobalFunctionPlot.draw, _range_on_cell", "puncturedfem/solver/globfunsp.py: GlobalFunctionSpace.build_local_function_space"]}
{"id": "C67", "title": "Trace plots draw every trace once over the boundary, with true tick labels", "statement": "TracePlot gives every boundary sample its parameter: parameters increase along the boundary and each edge takes an interval of length 2 pi. Quadratures with another number of nodes are refused. It accepts arrays and traces with one value per sample, draws each once with its format, and refuses formats and legends that do not have one entry per trace. Tick labels are the numbers at their marks. Setters keep the plot drawable.", "quantifier": "all cells, quadratures, lists of traces, formats, legends, numbers of ticks and calls of setters", "why_tests_cant": "Cells, lists and calls are unbounded; pictures are checked by eye.", "anchors": ["puncturedfem/plot/trace_plot.py: TracePlot.set_traces, TracePlot.set_format, TracePlot.set_legend, TracePlot._find_t_parameter, TracePlot._find_ticks_and_labels, TracePlot._plot_traces"]}
{"id": "C68", "title": "Plots of local functions show their values and gradients on the triangles of the cell", "statement": "LocalFunctionPlot draws the interior values followed by the boundary values, on the chosen scale. On the boundary a gradient component combines the normal and tangential derivatives of the function into the component of its gradient; for a function with the trace of its polynomial part it is the derivative of that polynomial. Points with tiny weight or gradients above the bound are left out. A triangle is drawn exactly when the cell does not mask it and its three corners have numbers. Unknown kinds and components and functions without interior values are refused. Drawing leaves the function as it was.", "quantifier": "all cells, functions, kinds of plot, scales, triangulations, external solvers", "why_tests_cant": "Cells, functions and triangulations are unbounded; pictures are checked by eye.", "anchors": ["puncturedfem/plot/locfun_plot.py: LocalFunctionPlot.draw, LocalFunctionPlot._draw_generic, LocalFunctionPlot._apply_masks_and_draw, _construct_gradient_component_on_boundary", "puncturedfem/locfun/local_poisson.py: LocalPoissonFunction"]}
{"id": "C69", "title": "The meshes of the library are the figures they are named after", "statement": "mesh_builder makes a mesh whose edges are the listed ones, between the vertices numbered by position. square_circular_hole, pacman and pacman_subdiv build; edge i has the samples of the i-th curve of the figure for every quadrature; the cells are 0 and 1, respectively 0 to 10, and every cell gets the contours of the figure, outer one first, with its holes. Outer contours close and go counterclockwise, holes close, go clockwise and stay inside and apart from each other. Every edge bounds two different cells, or one if it is on the outside.", "quantifier": "all lists of vertices and edges for the builder; all quadratures and all points of the curves for the figures", "why_tests_cant": "A picture of a mesh looks right although an edge is attached to the wrong cell or runs backwards; quadratures and points are unbounded.", "anchors": ["puncturedfem/mesh/meshlib/__builder__.py: mesh_builder", "puncturedfem/mesh/meshlib/square_circular_hole.py: square_circular_hole", "puncturedfem/mesh/meshlib/pacman.py: pacman", "puncturedfem/mesh/meshlib/pacman_subdiv.py: pacman_subdiv"]}
{"id": "C70", "title": "The traces of an edge span the polynomials of its degree", "statement": "The traces built for an edge, together with those of its ends, span every polynomial of the degree of the edge, on loops and on edges with two ends. For each pair of exponents of total degree two or more there is one trace led by that monomial alone, with the coefficient of the product of two integrated Legendre functions on the bounding box of the samples.", "quantifier": "all edges, samples, degrees and quadratures", "why_tests_cant": "Spanning is about all polynomials of all degrees on all edges; a missing direction only shows as slow convergence.", "anchors": ["puncturedfem/locfun/edge_space.py: EdgeSpace.build_spanning_set, EdgeSpace._transform_coordinates_to_bounding_box"]}
{"id": "C71", "title": "The printed text of a polynomial determines it", "statement": "Reading the text that print shows for a polynomial gives back its terms, for every polynomial whose coefficients print as numbers that read back. Two polynomials have the same text only if they have the same coefficients, and always if the library built them. Printing lists the terms by degree and changes nothing but their order.", "quantifier": "all polynomials and exponents, all texts of coefficients", "why_tests_cant": "Exponents and numbers of terms are unbounded; two polynomials with the same text go unnoticed.", "anchors": ["puncturedfem/locfun/poly/monomial.py: Monomial.__repr__", "puncturedfem/locfun/poly/poly.py: Polynomial.__repr__, Polynomial.__str__"]}
{"id": "C72", "title": "Edges have curves of the library", "statement": "The curve type of an edge, as given to the constructor or set_curve_type, names a curve of the library: another name is refused and leaves the type unchanged, and a name of the library can always be set.", "quantifier": "all names, all edges, all sequences of calls", "why_tests_cant": "The check looks at the wrong name, which no sequence of valid names shows.", "anchors": ["puncturedfem/mesh/edge.py: Edge.set_curve_type, Edge.get_parameterization_module, Edge.parameterize"]}
{"id": "C73", "title": "A refused method leaves the edge as it was", "statement": "When a transformation or the sampling of an edge raises an exception, the edge is unchanged: it has the same diary, samples and flags, and the next sampling gives what it would have given before.", "quantifier": "all edges, all transformations and parameters, all quadratures", "why_tests_cant": "Tests check that the exception is raised, not what is left of the object.", "anchors": ["puncturedfem/mesh/edge.py: Edge.parameterize, Edge.run_transform_diary, Edge.join_points, Edge.dilate, Edge.apply_orthogonal_transformation"]}
{"id": "C74", "title": "Plots close their figures", "statement": "A plot opens one figure, draws on it what its options ask for in the colours and within the limits that are given, saves it if a file name is given, shows it if asked to, and closes it; when it fails, no figure stays open. Other figures and the settings of other plots are left as they were.", "quantifier": "all meshes, local and global functions and traces, all options, all states of matplotlib", "why_tests_cant": "Tests do not look at the figures: a figure that stays open after an exception, or colours that belong to another plot, go unnoticed.", "anchors": ["puncturedfem/plot/mesh_plot.py: MeshPlot.draw", "puncturedfem/plot/locfun_plot.py: LocalFunctionPlot.draw", "puncturedfem/plot/globfun_plot.py: GlobalFunctionPlot.draw", "puncturedfem/plot/trace_plot.py: TracePlot.draw"]}
{"id": "C75", "title": "Polynomials in double precision", "statement": "With IEEE doubles a finite value of a polynomial differs from the exact one by at most the growth of the roundings times the sum of the sizes of the terms, plus underflow; integer data below 2^53 give exact values. Lists of terms with finite coefficients are brought to canonical form, each coefficient the rounded sum in list order. Addition commutes bit for bit.", "quantifier": "all polynomials with double coefficients, all points, all power functions of given accuracy", "why_tests_cant": "Tests compare a few values within a tolerance; they cannot bound the error for all coefficients and points, nor find where overflow and cancellation break the algebra.", "anchors": ["puncturedfem/locfun/poly/monomial.py: Monomial.eval", "puncturedfem/locfun/poly/poly.py: Polynomial.__call__, consolidate, __add__, __mul__"]}
{"id": "C76", "title": "Integrals over edges, contours and boundaries in double precision", "statement": "With IEEE doubles the integral of values over an edge, if finite, differs from the exact trapezoid or left sum by at most the growth of the roundings (6 or 7 more than the depth of the sum) times the integral of the sizes, plus underflow, in whatever order numpy adds. Integrals over closed contours and over the boundaries of cells have the same kind of bound (3 to 5 roundings more than the depth, and those of the weights). The same calls are refused. Nonnegative values have nonnegative integrals, and larger values have larger integrals if the order depends on positions only.", "quantifier": "all edges with 2 to 2^53+1 points, all parameterized cells whose components have at most 2^53 points, all values and weights, all orders of summation", "why_tests_cant": "The order of summation depends on the length and the processor, and tests see one order and a few values.", "anchors": ["puncturedfem/mesh/edge.py: Edge.integrate_over_edge, integrate_over_edge_preweighted, multiply_by_dx_norm", "puncturedfem/mesh/closed_contour.py: ClosedContour.integrate_over_closed_contour, integrate_over_closed_contour_preweighted", "puncturedfem/mesh/cell.py: MeshCell.integrate_over_boundary, integrate_over_boundary_preweighted"]}
{"id": "C77", "title": "Texts of objects can be read back", "statement": "The texts of meshes, function spaces, edges, vertices, quadrature rules, bilinear forms and solvers consist of lines 'key: value' from which the numbers of the object can be read back, negative ones included, and no key is shown with another object's number. The counts of functions in the text of a new space add up to its total, and a solver that was built shows the same total twice. Printing a form sorts its right-hand side and nothing else. Progress lines give the number of the cell counted from 1 and have the same length up to a million cells.", "quantifier": "all objects, all texts of floats that are one line without a blank at the start", "why_tests_cant": "Tests look at the texts of a few objects; they cannot show that no two spaces with different numbers have the same text.", "anchors": ["puncturedfem/mesh/vert.py: Vert.__str__", "puncturedfem/mesh/edge.py: Edge.__str__", "puncturedfem/mesh/quad.py: Quad.__repr__", "puncturedfem/mesh/planar_mesh.py: PlanarMesh.__str__", "puncturedfem/solver/globfunsp.py: GlobalFunctionSpace.__str__", "puncturedfem/solver/bilinear_form.py: BilinearForm.__str__", "puncturedfem/solver/solver.py: Solver.__str__, _build_values_and_indexes", "puncturedfem/util/print_color.py: print_color"]}
{"id": "C78", "title": "Rounding errors of inner products and of integrals of polynomials over cells", "statement": "The double-precision results of the boundary integrals that make up H1 and L2 products (products of a weighted normal derivative and a trace, differences of two such integrals, and the sum of four blocks) and of the integral of a polynomial over a cell differ from the results with real numbers by at most the growth of a stated number of roundings times the integral of the absolute values, plus a stated absolute term. Errors already present in the traces, positions, normals and weights are carried through. The product of the two arrays is the same in either order, bit for bit.", "quantifier": "all cells parameterized by the code with at most 2^53 samples per contour, all orders of summation, all arrays of doubles with a finite result", "why_tests_cant": "Tests compare a few integrals with a tolerance; they do not bound the error for every mesh and every order of summation used by numpy.", "anchors": ["puncturedfem/locfun/poly/integrate_poly.py: integrate_poly_over_mesh_cell", "puncturedfem/locfun/local_poisson.py: get_h1_semi_inner_prod, get_l2_inner_prod", "puncturedfem/mesh/cell.py: integrate_over_boundary_preweighted"]}
{"id": "C79", "title": "Integrals over edges and cell boundaries converge to line and area integrals as the number of points grows", "statement": "For every smooth edge and every continuous function of position and normal, the integral computed from 2n+1 samples tends to the line integral as n grows, with the trapezoid rule at the rate 1/n^2. The integral over the boundary of a cell tends to the integral over all its edges with outward normals. The integral of a polynomial over a cell tends to the integral over the cell: as a sum of signed cones for any cell, and as an iterated integral for cells bounded by rectangles and circles, in particular for every cell of every pegboard mesh.", "quantifier": "all smooth edges, both sampling rules, all cells the code accepts and can parameterize, all polynomials, all error bounds eps > 0", "why_tests_cant": "Tests compare a few integrals at a few values of n; a limit is a statement about all n.", "anchors": ["puncturedfem/mesh/edge.py: integrate_over_edge, parameterize", "puncturedfem/mesh/cell.py: integrate_over_boundary", "puncturedfem/locfun/poly/integrate_poly.py: integrate_poly_over_mesh_cell", "puncturedfem/mesh/meshlib/pegboard.py: pegboard"]}
{"id": "C80", "title": "Setters refuse values of the wrong kind, store accepted ones and change nothing else", "statement": "Each of the 30 setters with one argument accepts exactly the values it is for, refuses every other value with the documented exception and leaves the object unchanged then, stores an accepted value and touches no other attribute. After any sequence of calls an attribute holds the last value accepted for it. Keys keep only the indices of their kind of function, and objects that depend on a set value follow it.", "quantifier": "all setters, all objects, all values, all sequences of calls", "why_tests_cant": "Tests call a setter with a few values on a fresh object; the claim is about every value, every prior state and every order of calls.", "anchors": ["puncturedfem/solver/globkey.py: GlobalKey", "puncturedfem/solver/globfunsp.py: set_mesh, set_deg", "puncturedfem/solver/bilinear_form.py: BilinearForm", "puncturedfem/solver/solver.py: set_global_function_space, set_bilinear_form", "puncturedfem/locfun/trace.py: set_edges", "puncturedfem/plot/trace_plot.py: set_title, set_grid, set_log_scale", "puncturedfem/util/types.py: is_Func_R2_R"]}
{"id": "C81", "title": "Order of convergence of the integrals over edges and cells", "statement": "The error of the integral over an edge or over the boundary of a cell is at most C / n^k for every n >= 4, where C does not depend on n. With Kress's rule k may be p - 1 on edges and integrands with p - 1 continuous derivatives; with the trapezoid rule on closed curves without corners k is as large as the smoothness allows. Integrals of polynomials over cells bounded by rectangles and circles, and over all cells of a pegboard, have this order. Over cells bounded by circles the integral of a polynomial of degree d is exact as soon as 2n > d + 1.", "quantifier": "all p >= 2, all orders k, all n >= 4, all smooth edges and integrands, all cells, all boards", "why_tests_cant": "A table of errors for a few n can suggest an order but cannot bound the error for all n, and rounding hides the high orders.", "anchors": ["puncturedfem/mesh/quad.py: Quad", "puncturedfem/mesh/edge.py: parameterize, integrate_over_edge", "puncturedfem/mesh/cell.py: integrate_over_boundary", "puncturedfem/locfun/poly/integrate_poly.py: integrate_poly_over_mesh_cell"]}
{"id": "C82", "title": "The whole script ends, on every pegboard of admissible size", "statement": "The script that builds a mesh, its global function space, its bilinear form and its solver ends without an exception whenever the edges can be parameterized, no non-loop edge is shorter than the tolerance, every cell can be constructed and parameterized and its samples are distinct, and GMRES returns vectors of the right size. It then counts one function per vertex, the functions of the edge spaces and d(d-1)/2 bubbles per cell. Conversely, if it ends then every cell could be constructed and parameterized. On a pegboard of M by N squares it ends whenever max(M, N) is at most 1000000, or 707106 with holes, and on no larger one.", "quantifier": "all meshes, all degrees d >= 1, all p >= 2 and 4 <= n <= 10000000, all boards, all bilinear forms with a canonical right-hand side, with and without interior values and gradients", "why_tests_cant": "Running the script on some meshes shows nothing about the others; boards near the size limit cannot be run at all.", "anchors": ["puncturedfem/mesh/meshlib/pegboard.py: pegboard", "puncturedfem/mesh/planar_mesh.py: PlanarMesh", "puncturedfem/solver/globfunsp.py: GlobalFunctionSpace", "puncturedfem/solver/solver.py: Solver.assemble"]}
{"id": "C83", "title": "What a failed sampling of a cell leaves", "statement": "When MeshCell.parameterize raises, it stops at one contour: the contours before it are sampled, those after it are untouched, and it is itself untouched, because one of its edges raised, or has all its tables but no point inside. Edges outside the cell keep their state and edges of the cell their description. Another attempt, with any parameters, raises the same exception as on the untouched cell or gives the same edges and the same cell up to interior points. A cell that could not be sampled refuses to be evaluated, and keeps no points outside itself as interior points.", "quantifier": "all cells, edges, quadratures, containment tests, numbers of rows and columns", "why_tests_cant": "Every step of every loop can raise; tests try a few failures and seldom look at the objects afterwards.", "anchors": ["puncturedfem/mesh/cell.py: MeshCell.parameterize", "puncturedfem/mesh/closed_contour.py: ClosedContour.parameterize, find_interior_point", "puncturedfem/mesh/edge.py: Edge.parameterize"]}
{"id": "C84", "title": "Assembly can be repeated", "statement": "The outcome of Solver does not depend on the samples that the edges of the mesh have before. Over a global function space that an earlier solver has used, whether that one was finished or stopped between two cells or within one, a solver with the same form and the same flags raises the exception that the first would raise on the fresh space, or has the same matrices, right-hand side and local functions; its space then holds for every cell the keys of the earlier run followed by its own. After a finished run the second solver exists and forms from coefficients every function that the first forms.", "quantifier": "all meshes of constructed edges, degrees, forms, quadratures, containment tests, linear solvers and low-rank methods, all points at which the earlier run stops", "why_tests_cant": "The state left by an earlier run is spread over edges, cells and the global space, and the run can stop anywhere; tests build each solver on fresh objects.", "anchors": ["puncturedfem/solver/solver.py: Solver.assemble, _build_values_and_indexes, _impose_zero_dirichlet_bc, get_coef_on_mesh_cell, compute_linear_combo_on_mesh_cell", "puncturedfem/solver/globfunsp.py: GlobalFunctionSpace.build_local_function_space", "puncturedfem/mesh/cell.py: MeshCell.parameterize"]}
{"id": "C85", "title": "Values inside the cells do not change the system", "statement": "A Solver that is built with compute_interior_values or compute_interior_gradient is also built with any flags that ask for less, and has the same matrices, right-hand side, numbers and registered keys, and leaves the same samples on the edges. When values are still asked for, the stored local functions are the same with the same values; without gradients the gradients are arrays of zeros of the same size. When values are not asked for, no functions are stored. Two solvers with any flags have the same system if both are built. An exception without the flags means an exception with them.", "quantifier": "all meshes, global spaces, degrees, forms, quadratures, containment tests, linear solvers and low-rank methods, all pairs of flags", "why_tests_cant": "Interior points are an attribute of the cell that sampling, layers, traces and products share; only a few combinations of flags and meshes are run by tests.", "anchors": ["puncturedfem/solver/solver.py: Solver.assemble, _build_values_and_indexes", "puncturedfem/solver/globfunsp.py: GlobalFunctionSpace.build_local_function_space", "puncturedfem/locfun/local_space.py: LocalFunctionSpace", "puncturedfem/locfun/local_poisson.py: LocalPoissonFunction.compute_interior_values", "puncturedfem/mesh/cell.py: MeshCell.parameterize"]}
{"id": "C86", "title": "How the system depends on the bilinear form", "statement": "Over the same global space, a Solver with other diffusion and reaction constants raises the same exception or has the same keys, local functions, stiffness and mass matrices and right-hand side; rows of functions on the boundary of the mesh are unchanged, and all other rows of the global matrix are the new diffusion constant times the stiffness row plus the new reaction constant times the mass row. Solvers that differ in the right-hand side polynomial have the same matrices, keys and local functions, loads at the same places, and the same loads in boundary rows.", "quantifier": "all meshes, global spaces, pairs of forms, flags, quadratures, containment tests, linear solvers and low-rank methods", "why_tests_cant": "Entries at the same place are added over all cells and boundary rows are overwritten afterwards; the constants and meshes are unbounded.", "anchors": ["puncturedfem/solver/bilinear_form.py: BilinearForm.eval_with_h1_and_l2, eval_rhs", "puncturedfem/solver/solver.py: Solver.assemble, _build_values_and_indexes, _impose_zero_dirichlet_bc"]}
{"id": "C87", "title": "Transformations of sampled edges in double precision", "statement": "With IEEE doubles, a translated sample is off by at most one relative rounding of each coordinate, a dilated one by one rounding for points and weights and two for the curvature, an orthogonally transformed one by two for points and tangents, and a rotated one by these plus the errors of cosine and sine; normals are the turned tangents exactly, rotations leave curvature and weights as they are, reflections and reversal are exact, two of them restore every number. A dilation is refused exactly for numbers below 1e-12 in absolute value. Translation there and back restores a point up to the size of the place in between, not exactly.", "quantifier": "all sampled edges with double entries, all shifts, factors, matrices and computed cosines and sines, all orders and fused forms of the matrix product", "why_tests_cant": "There are 2^64 doubles for every entry, and the order and fusing of the matrix product depend on the processor.", "anchors": ["puncturedfem/mesh/edge.py: Edge.translate, dilate, rotate, reflect_across_x_axis, reflect_across_y_axis, apply_orthogonal_transformation, reverse_orientation"]}

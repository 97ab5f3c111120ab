{
 "claims": [
  {
   "property": "C01",
   "status": "proved",
   "theorems": [
    "C01_index_bijection",
    "C01_set_from_idx",
    "C01_set_from_idx_int",
    "C01_constructor"
   ],
   "note": "Bijection and graded order; set_from_idx over exact reals."
  },
  {
   "property": "C02",
   "status": "partial",
   "theorems": [
    "C02_decodes_partial",
    "C02_refuted",
    "C02_no_silent_error",
    "C02_negative_rejected"
   ],
   "note": "Proved up to the exact first failing index 2^53+2^26-1, where the constructor raises (refuted). Whatever is returned is right for every k."
  },
  {
   "property": "C03",
   "status": "proved",
   "theorems": [
    "C03_canonical",
    "C03_constructor",
    "C03_constructor_coef",
    "C03_unique",
    "C03_with_idxs",
    "C03_is_zero",
    "C03_copy"
   ],
   "note": "Canonical form for every expression over the operators; canonical form is unique."
  },
  {
   "property": "C04",
   "status": "proved",
   "theorems": [
    "C04_monomial_sum",
    "C04_coefficients",
    "C04_add",
    "C04_add_error",
    "C04_sub",
    "C04_neg",
    "C04_scale",
    "C04_scale_error",
    "C04_div",
    "C04_div_zero",
    "C04_add_scalar",
    "C04_grid",
    "C04_operands",
    "C04_operands_rejected",
    "C04_mul_operand"
   ],
   "note": "Values, coefficients and error bounds; division by zero rejected."
  },
  {
   "property": "C05",
   "status": "proved",
   "theorems": [
    "C05_cauchy_product",
    "C05_value",
    "C05_value_error",
    "C05_value_grid",
    "C05_commutative",
    "C05_distributive",
    "C05_associative",
    "C05_distributive_unconditional_refuted"
   ],
   "note": "Cauchy product with cutoff; exact value and laws under a no-drop or grid condition; unconditional distributivity refuted."
  },
  {
   "property": "C06",
   "status": "proved",
   "theorems": [
    "C06_partial_x",
    "C06_partial_y",
    "C06_grad",
    "C06_other_rejected",
    "C06_other_rejected_refuted"
   ],
   "note": "Calculus derivatives. The rejection of other variable names fails for the zero polynomial (refuted theorem)."
  },
  {
   "property": "C07",
   "status": "proved",
   "theorems": [
    "C07_laplacian",
    "C07_coefficients",
    "C07_laplacian_error"
   ],
   "note": "Exact on a grid; error bound for every canonical polynomial."
  },
  {
   "property": "C08",
   "status": "proved",
   "theorems": [
    "C08_anti_laplacian_error",
    "C08_anti_laplacian",
    "C08_anti_laplacian_refuted"
   ],
   "note": "Right inverse under the lattice condition, every degree; refuted without it (x^16 y^6). For every polynomial the coefficient of degree n is off by at most (2 (n+1)^2 (n+2)^2 + 1) 1e-12 (C08_anti_laplacian_error)."
  },
  {
   "property": "C09",
   "status": "proved",
   "theorems": [
    "C09_power_error",
    "C09_compose_error",
    "C09_pow",
    "C09_pow_rejected",
    "C09_compose"
   ],
   "note": "Exact under an explicit grid condition; for all polynomials the error of powers and compositions at a point is bounded (C09_power_error, C09_compose_error)."
  },
  {
   "property": "C10",
   "status": "partial",
   "theorems": [
    "C10_characterisation",
    "C10_pure",
    "C10_refl_sym",
    "C10_transitive_refuted",
    "C10_transitive_partial"
   ],
   "note": "Characterisation, reflexivity, symmetry proved; transitivity refuted by a witness."
  },
  {
   "property": "C11",
   "status": "partial",
   "theorems": [
    "C11_iadd",
    "C11_iadd_is_add",
    "C11_self_alias_refuted"
   ],
   "note": "Proved for distinct objects; p += p refuted: never terminates for nonzero p."
  },
  {
   "property": "C12",
   "status": "partial",
   "theorems": [
    "C12_broadcast",
    "C12_broadcast_refused",
    "C12_arrays",
    "C12_scalars",
    "C12_scalar_x_array_y_refuted"
   ],
   "note": "Pointwise for array x with y of any shape that numpy stretches to it; other shapes are refused exactly when a monomial contains y; scalar x with array y refuted."
  },
  {
   "property": "C13",
   "status": "partial",
   "theorems": [
    "C13_operator",
    "C13_frame",
    "C13_copy_independent_refuted",
    "C13_refused"
   ],
   "note": "Frame theorem for operator programs proved; the refused commands are characterised; independence of copy refuted."
  },
  {
   "property": "C14",
   "status": "partial",
   "theorems": [
    "C14_legendre",
    "C14_list_length",
    "C14_bonnet",
    "C14_first",
    "C14_endpoints",
    "C14_derivative_difference",
    "C14_differential_equation",
    "C14_orthogonal",
    "C14_degree_zero_length_refuted"
   ],
   "note": "Exact for (deg+1)*1e-12 <= 1 (every practical degree); length claim refuted for degree 0."
  },
  {
   "property": "C15",
   "status": "proved",
   "theorems": [
    "C15_endpoints",
    "C15_derivative",
    "C15_derivatives_orthonormal",
    "C15_first",
    "C15_tensor_pairs"
   ],
   "note": "Exact for 4(deg+1)^4*1e-12 <= 1; tensor list is every pair once."
  },
  {
   "property": "C16",
   "status": "partial",
   "theorems": [
    "C16_nodal",
    "C16_nodal_error",
    "C16_clockwise_refuted",
    "C16_clockwise_witness_refuted",
    "C16_degenerate",
    "C16_collinear_rejected_refuted",
    "C16_edge",
    "C16_edge_error",
    "C16_products",
    "C16_products_refused",
    "C16_products_ends"
   ],
   "note": "Nodal for counterclockwise triangles and for edges, with and without dropped coefficients; refuted for clockwise triangles and for rejection of distinct collinear points. The products returned with the coordinates are characterised exactly (C16_products)."
  },
  {
   "property": "C17",
   "status": "proved",
   "theorems": [
    "C17_total",
    "C17_conforming",
    "C17_conforming_error",
    "C17_sublist",
    "C17_counts",
    "C17_nonnegative",
    "C17_vertex_keys",
    "C17_degree_rejected",
    "C17_linear_span",
    "C17_reference_box"
   ],
   "note": "Exact when no coefficient is dropped, explicit error bound otherwise; integration functional and SVD truncation arbitrary."
  },
  {
   "property": "C18",
   "status": "proved",
   "theorems": [
    "C18_linear",
    "C18_divergence"
   ],
   "note": "Linear in coefficients; boundary integrand is F.n with div F = p."
  },
  {
   "property": "C19",
   "status": "proved",
   "theorems": [
    "C19_nodes",
    "C19_exact",
    "C19_alias",
    "C19_arguments",
    "C19_dict"
   ],
   "note": "Nodes, unit weights, exactness below degree 2n, aliasing at 2n, argument checks, quadrature dictionary."
  },
  {
   "property": "C20",
   "status": "proved",
   "theorems": [
    "C20_kress",
    "C20_substitution"
   ],
   "note": "Endpoints, strict monotonicity, symmetry, weight = derivative of the node map, positivity, for every integer p >= 2."
  },
  {
   "property": "C21",
   "status": "partial",
   "theorems": [
    "C21_rule",
    "C21_top_degree_refuted",
    "C21_nodes",
    "C21_name_refuted"
   ],
   "note": "Symmetry, annihilation of constants and sines, and exactness for the product of the logarithmic kernel with every trigonometric polynomial of degree below n, against the actual improper integral over a period. Refuted at degree n (top term not halved) and for the long name 'martensen' (trapezoid weights)."
  },
  {
   "property": "C22",
   "status": "proved",
   "theorems": [
    "C22_derivatives"
   ],
   "note": "All library curves; for the spline curve the derivative relation of the scipy object is a hypothesis."
  },
  {
   "property": "C23",
   "status": "partial",
   "theorems": [
    "C23_open",
    "C23_sine_refuted",
    "C23_arc_deg",
    "C23_round",
    "C23_closed",
    "C23_closed_smooth",
    "C23_teardrop_corner",
    "C23_rejected"
   ],
   "note": "Proved for all curves except the sine wave with a non-integer frequency, which is refuted."
  },
  {
   "property": "C24",
   "status": "partial",
   "theorems": [
    "C24_regular",
    "C24_circle_ellipse",
    "C24_refuted"
   ],
   "note": "Proved for every curve with nonzero size options; zero radius is accepted by the code and refuted."
  },
  {
   "property": "C25",
   "status": "partial",
   "theorems": [
    "C25_sample_meaning",
    "C25_geometry_partial",
    "C25_negative_dilation_refuted",
    "C25_new_edge",
    "C25_edge_refused",
    "C25_sampled_points",
    "C25_sampled_refused"
   ],
   "note": "Samples of every parameterized edge are position, unit tangent, clockwise normal, speed times weight and signed curvature of the transformed curve, for every history of fine steps. Refuted for negative dilations, whose tangent and curvature keep the wrong sign. Construction: attributes of a new edge and the exception for each refused argument. The sampled points with and without the endpoint (C25_sampled_points)."
  },
  {
   "property": "C26",
   "status": "partial",
   "theorems": [
    "C26_steps_partial",
    "C26_recorded",
    "C26_order",
    "C26_rejected",
    "C26_near_orthogonal",
    "C26_negative_dilation_refuted"
   ],
   "note": "Each step acts as the stated similarity on all stored quantities, is recorded in order, and is rejected on bad input. Refuted for negative dilations; nearly orthogonal matrices are accepted with a bounded error."
  },
  {
   "property": "C27",
   "status": "proved",
   "theorems": [
    "C27_involution",
    "C27_reversed",
    "C27_reversed_curve",
    "C27_integrals"
   ],
   "note": ""
  },
  {
   "property": "C28",
   "status": "proved",
   "theorems": [
    "C28_join",
    "C28_rejected"
   ],
   "note": "The code also rejects a length ratio below the tolerance; the exact acceptance condition is in C28_rejected."
  },
  {
   "property": "C29",
   "status": "partial",
   "theorems": [
    "C29_cell_depends",
    "C29_cell_again",
    "C29_deparameterize",
    "C29_no_join",
    "C29_stable",
    "C29_join_last_partial",
    "C29_refuted"
   ],
   "note": "Holds without joins, for histories that end in a join after an orientation preserving part, and for every history from the second call on. Refuted when a transformation follows a join: the diary is rewritten to the join alone. Whole cells: sampling depends only on the descriptions of the edges, and sampling again after deparameterize gives the same cell."
  },
  {
   "property": "C30",
   "status": "partial",
   "theorems": [
    "C30_join_last_partial",
    "C30_fresh",
    "C30_translate_refuted",
    "C30_reverse_refuted",
    "C30_circle_refuted"
   ],
   "note": "Holds for fresh edges between distinct vertices and whenever the history ends in a join. Refuted after a translation, after reverse_orientation and for circles."
  },
  {
   "property": "C31",
   "status": "partial",
   "theorems": [
    "C31_pieces",
    "C31_single",
    "C31_equal",
    "C31_retrace_partial",
    "C31_samples",
    "C31_reflected_refuted"
   ],
   "note": "Pieces chain up, share the split parameters and keep type, options and quadrature for every edge and every list of split points; equal subdivision; retracing of the original curve is proved for every history of translations, rotations, dilations and joins that moves the curve ends apart (C31_retrace_partial). A history with a reflection is refuted (the pieces are joined by rotation and lose the reflection)."
  },
  {
   "property": "C32",
   "status": "partial",
   "theorems": [
    "C32_rejected",
    "C32_out_of_range",
    "C32_empty_refuted",
    "C32_caller",
    "C32_caller_refuted"
   ],
   "note": "All invalid requests are rejected and out-of-range parameters are errors. Refuted: an empty list of split points ends in UnboundLocalError, and the caller's list comes back sorted (C32_caller gives the exact effect)."
  },
  {
   "property": "C33",
   "status": "partial",
   "theorems": [
    "C33_well_sampled",
    "C33_trapezoid",
    "C33_linear",
    "C33_monotone",
    "C33_rejected",
    "C33_ignore_endpoint_refuted",
    "C33_broadcast"
   ],
   "note": "Every parameterized edge is well sampled; with the endpoint the integral is the trapezoid rule of values times speed, linear and monotone; size and state errors. Refuted: without the endpoint the last kept sample is dropped too (general difference formula and a Kress line witness). Broadcasting of the values is characterised exactly."
  },
  {
   "property": "C34",
   "status": "partial",
   "theorems": [
    "C34_ignore_endpoint_partial",
    "C34_rejected",
    "C34_endpoint_refuted"
   ],
   "note": "Without the endpoint: pointwise dot products for tangent and normal; wrong lengths and unparameterized edges rejected. Refuted: with the endpoint the slice [:-0] is empty and every call fails."
  },
  {
   "property": "C35",
   "status": "partial",
   "theorems": [
    "C35_contains_partial",
    "C35_contains",
    "C35_positive",
    "C35_contains_refuted",
    "C35_rejected"
   ],
   "note": "Positive width and height unless all samples coincide, for every sampled edge. Containment proved unless the larger spread lies in [tol, 2 tol) (exact condition in C35_contains_partial). Refuted at spreads 0.9 tol and tol."
  },
  {
   "property": "C36",
   "status": "proved",
   "theorems": [
    "C36_error",
    "C36_contours",
    "C36_rejected",
    "C36_tolerance_refused"
   ],
   "note": "Construction succeeds exactly when every listed edge bounds the cell and each has one successor and one predecessor; the contours are cyclic chains that use every listed edge once, with the sign of each edge. Tolerances that are not positive are refused with a TypeError."
  },
  {
   "property": "C37",
   "status": "proved",
   "theorems": [
    "C37_partition",
    "C37_values",
    "C37_construct",
    "C37_unsampled_refused",
    "C37_sampled_elsewhere",
    "C37_vectors"
   ],
   "note": "For every built and parameterized cell the index tables give a bijection between [0, num_pts) and the non-repeated samples; evaluation, points, dot products and weights agree index by index. A contour with unsampled edges refuses; a new contour over edges sampled by others fails with AttributeError (C37_sampled_elsewhere). Tangents, normals and speeds along the boundary are those of the samples (C37_vectors). The constructor accepts exactly matching lists with orientations 1 and -1 and keeps the first occurrence of each edge (C37_construct)."
  },
  {
   "property": "C38",
   "status": "partial",
   "theorems": [
    "C38_closest_vertex_partial",
    "C38_holes_refuted"
   ],
   "note": "Right on the outer contour. On every hole the stored index is relative to the contour, not to the cell, so it points into another block (refuted for every cell with a hole)."
  },
  {
   "property": "C39",
   "status": "partial",
   "theorems": [
    "C39_outer_first_partial",
    "C39_outer_last_refuted",
    "C39_refuted"
   ],
   "note": "Holds whenever the enclosing component is not listed last (or is alone). If it is listed last, the search misses it and a hole is kept as the outer boundary (refuted with an annulus)."
  },
  {
   "property": "C40",
   "status": "partial",
   "theorems": [
    "C40_sum_of_edges",
    "C40_endpoint_gap",
    "C40_trapezoid_partial",
    "C40_kress_closes",
    "C40_linear",
    "C40_invariant",
    "C40_contour",
    "C40_trapezoid_refuted"
   ],
   "note": "The integral is the sum over edges of the weighted samples without the last one; equal to the edge integrals for Kress sampling, linear, invariant under reordering and reversal of edges. Trapezoid sampling at corners differs (refuted with a 3-4-5 triangle)."
  },
  {
   "property": "C41",
   "status": "partial",
   "theorems": [
    "C41_interior_points_partial",
    "C41_oblong_refuted",
    "C41_component_points",
    "C41_component_search",
    "C41_square_total"
   ],
   "note": "Exact characterization for square grids of any size and any point-in-polygon oracle. Grids with rows <> cols always raise IndexError (refuted). Interior points of contours: exact characterization of the search."
  },
  {
   "property": "C42",
   "status": "partial",
   "theorems": [
    "C42_boundary_hidden",
    "C42_boundary_exact_partial",
    "C42_boundary_coordinates",
    "C42_boundary_refuted",
    "C42_hole_exact",
    "C42_hole_kept_partial",
    "C42_hole_segments",
    "C42_hole_refuted"
   ],
   "note": "Boundary mask hides every triangle with a boundary corner and is exact without coordinate coincidences; hole mask characterized exactly. Both refuted in general with concrete point sets."
  },
  {
   "property": "C43",
   "status": "partial",
   "theorems": [
    "C43_disjoint_partial",
    "C43_shared_edge_partial",
    "C43_refuted",
    "C43_resampled",
    "C43_numbers_refuted"
   ],
   "note": "Cells without common edges do not interfere. A shared edge keeps its samples when both cells orient it alike and is reversed otherwise (refuted: annulus and the disc in its hole). When the neighbour uses another number of points, evaluating and integrating on the first cell is refused from then on (C43_numbers_refuted, C43_resampled)."
  },
  {
   "property": "C44",
   "status": "partial",
   "theorems": [
    "C44_tables",
    "C44_rejected",
    "C44_late_edge_refuted",
    "C44_refuted",
    "C44_two_meshes_refuted"
   ],
   "note": "Constructor tables are exact for every edge list and unusable edges are rejected. Edges added later are missing from the tables, and a second mesh over shared edges renumbers them (refuted)."
  },
  {
   "property": "C45",
   "status": "proved",
   "theorems": [
    "C45_get_cell",
    "C45_abs_idx",
    "C45_edge_boundary",
    "C45_vert_boundary"
   ],
   "note": "get_cell, get_abs_cell_idx and the two boundary tests for all meshes and indices."
  },
  {
   "property": "C46",
   "status": "partial",
   "theorems": [
    "C46_mesh",
    "C46_cell",
    "C46_sides",
    "C46_boundary",
    "C46_get_cell_partial",
    "C46_large_refuted",
    "C46_size_refuted",
    "C46_degenerate",
    "C46_hole",
    "C46_hole_inside",
    "C46_radius_refuted"
   ],
   "note": "Cells, sides, sharing and boundary for every size; get_cell of every disc, and of every square exactly up to 707106 squares per side with holes and 10^6 without. Refuted: size order, radius 1/2 and above, larger sides; degenerate sizes raise."
  },
  {
   "property": "C47",
   "status": "partial",
   "theorems": [
    "C47_bijection",
    "C47_shared",
    "C47_rejected",
    "C47_keys",
    "C47_invalid_refuted",
    "C47_register",
    "C47_twice_refuted",
    "C47_boundary_kinds",
    "C47_glob_idx",
    "C47_no_such_cell",
    "C47_untyped"
   ],
   "note": "Bijection onto 0..num_funs-1 and sharing for every mesh, degree and edge-space sizes; keys outside the total range are rejected. Refuted: a bubble or edge index one too large is accepted as a function of the next cell or edge, and building the same cell twice lists its functions twice. Unknown kinds of keys are refused (C47_boundary_kinds). Indices refused by set_glob_idx (C47_glob_idx)."
  },
  {
   "property": "C48",
   "status": "proved",
   "theorems": [
    "C48_matrices",
    "C48_rows",
    "C48_total"
   ],
   "note": "For every mesh, degree, edge-space sizes and arbitrary local bases and inner products: entries, symmetry, free rows and load. Each pair is evaluated once, so for a non-symmetric local product the upper value is used twice. Assembly succeeds for valid keys and raises without any function."
  },
  {
   "property": "C49",
   "status": "partial",
   "theorems": [
    "C49_rows",
    "C49_solution",
    "C49_identity_refuted"
   ],
   "note": "Solutions vanish at boundary functions and the interior equations are unmodified. Refuted: boundary rows are identity rows (the diagonal counts the cells)."
  },
  {
   "property": "C50",
   "status": "partial",
   "theorems": [
    "C50_unsolved_refuted",
    "C50_solved",
    "C50_coef",
    "C50_combo",
    "C50_cutoff_refuted",
    "C50_twice_refuted",
    "C50_combo_error",
    "C50_combo_sharp"
   ],
   "note": "After solve the vector is returned; coefficients and combination on every cell are exact up to the cutoff. Refuted: get_solution before solve raises; coefficients below 1e-4 are dropped; a second solver doubles the coefficient vectors. The error of the cutoff is bounded by 1e-4 times the sum of the sizes of the basis values (C50_combo_error), and the bound is sharp."
  },
  {
   "property": "C51",
   "status": "partial",
   "theorems": [
    "C51_func_on_edge",
    "C51_func_refused",
    "C51_unsampled_refused",
    "C51_edge_refused",
    "C51_values_refused",
    "C51_not_polys",
    "C51_edges_refused",
    "C51_values",
    "C51_derivatives",
    "C51_edge",
    "C51_funcs",
    "C51_constructor",
    "C51_poly_on_edge",
    "C51_scalar_list_refuted",
    "C51_list_length_refuted",
    "C51_polys_refuted",
    "C51_stale_refuted",
    "C51_default_refuted",
    "C51_unparameterized"
   ],
   "note": "Values, derivatives and functions land at exactly the sampled indices of each edge, for every edge list and every state reachable by the setters. Refuted: a list of scalars is refused, the list length is unchecked, set_funcs_from_polys always fails (Polynomial has no eval), set_func_on_edge leaves stale values, the default trace has no values. Exact effect and exceptions of set_func_on_edge (C51_func_on_edge, C51_func_refused). Refused values on one edge (C51_edge_refused). Refused values on all edges (C51_values_refused)."
  },
  {
   "property": "C52",
   "status": "proved",
   "theorems": [
    "C52_add",
    "C52_mul",
    "C52_div",
    "C52_sub",
    "C52_distributive",
    "C52_rejected"
   ],
   "note": "Sum, scalar multiple, quotient and difference are entrywise on values and on both derivatives, for every reachable trace; bad operands are refused. Edges are held as values, so re-parameterizing an edge later is not modelled; edges are not compared by the code (C52_by_position)."
  },
  {
   "property": "C53",
   "status": "partial",
   "theorems": [
    "C53_laplacian_error",
    "C53_parts_differ",
    "C53_sum_in_place",
    "C53_sum_entries",
    "C53_derivative_needed",
    "C53_parts_scale",
    "C53_parts_refused",
    "C53_trace",
    "C53_total",
    "C53_refused",
    "C53_polynomial",
    "C53_laplacian_partial",
    "C53_add",
    "C53_scale",
    "C53_trace_values",
    "C53_laplacian_refuted"
   ],
   "note": "The trace is exactly the given one and arithmetic is linear in both parts, for every function reachable by construction and arithmetic; the boundary solver is an arbitrary oracle. The Laplacian of the polynomial part is f when no term falls below the cutoff 1e-12; refuted otherwise (x^16 y^6). For every f the error on a square is bounded explicitly (C53_laplacian_error). Parts scale and divide as stated; the exception for each refused factor. Differences of parts (C53_parts_differ). Sums in place, entry by entry (C53_sum_in_place, C53_sum_entries)."
  },
  {
   "property": "C54",
   "status": "partial",
   "theorems": [
    "C54_bilinear_error",
    "C54_cell_integral",
    "C54_h1_blocks",
    "C54_l2_blocks",
    "C54_parts",
    "C54_mixed",
    "C54_order",
    "C54_boundary_blocks",
    "C54_bilinear_partial",
    "C54_bilinear_refuted"
   ],
   "note": "Block decomposition, mixed products in both orders, bilinearity of the boundary blocks: proved for all local functions. Full bilinearity is proved when coefficients lie on grids whose products stay above 1e-12 and refuted without (C54_bilinear_refuted); without any such condition, sums, differences, multiples and quotients are respected up to an explicit multiple of 1e-12 (C54_bilinear_error). The harmonic block is not claimed symmetric: the boundary solver is an oracle."
  },
  {
   "property": "C55",
   "status": "proved",
   "theorems": [
    "C55_components",
    "C55_rational",
    "C55_logarithm",
    "C55_conjugate",
    "C55_residues",
    "C55_simply",
    "C55_multiply",
    "C55_total",
    "C55_tame",
    "C55_derivatives_needed",
    "C55_direct_needed"
   ],
   "note": "Laplacian and gradient of (x1 rho + x2 rho_hat)/4, of the rational and of the logarithmic corrections, for all harmonic functions, points and centres; the conjugacy of the subtracted rational functions and the values of the two residue integrals; on every parameterized cell, with or without holes and with both strategies, the returned arrays are the samples of a function with that Laplacian and of its weighted normal derivative. On all arrays of the right sizes the code returns, and so does every solver request of C53 and C56 built on it. Exactness of the Neumann solver, and resolution by the samples, are hypotheses of the array theorems. Without derivatives the transform is refused (C55_derivatives_needed)."
  },
  {
   "property": "C56",
   "status": "proved",
   "theorems": [
    "C56_cauchy",
    "C56_derivative",
    "C56_values",
    "C56_gradient",
    "C56_total",
    "C56_refused"
   ],
   "note": "The integrands are the real and imaginary parts of the discrete Cauchy sum and of its complex derivative; stored values and gradients, gradient of the total value, Laplacian of the total value, totality and refusal without interior points. Points equal to a boundary sample or a hole centre are excluded (division by zero)."
  },
  {
   "property": "C57",
   "status": "partial",
   "theorems": [
    "C57_interpolant",
    "C57_derivative",
    "C57_linear",
    "C57_antiderivative",
    "C57_inverse",
    "C57_inverse_partial",
    "C57_inverse_refuted",
    "C57_refused",
    "C57_components",
    "C57_cells_refuted"
   ],
   "note": "Existence and uniqueness of the interpolant, exact derivative for odd and even counts, linearity, antiderivative, and the exact effect of both compositions are proved for every sample count, also per component of a cell. Inversion up to the mean holds for odd counts and is refuted for every even count (the alternating mode is lost), which is the count on every parameterized cell."
  },
  {
   "property": "C58",
   "status": "proved",
   "theorems": [
    "C58_strategies",
    "C58_matrix_refused",
    "C58_sizes_refused",
    "C58_double_matrix",
    "C58_double_refused",
    "C58_matrices",
    "C58_double_operator",
    "C58_double_constant",
    "C58_neumann_constant",
    "C58_conjugate_constant",
    "C58_linear",
    "C58_conjugate_linear",
    "C58_corner",
    "C58_circle",
    "C58_logs",
    "C58_indicator",
    "C58_preconditioner",
    "C58_solver",
    "C58_solver_refused",
    "C58_operator_matrix",
    "C58_neumann_matrix"
   ],
   "note": "Entries of both matrices for every pair of samples; the operator formula; the double layer operator maps constants to zero on every cell (also with holes), the augmented operators map a constant to itself times the perimeter by quadrature (with holes followed by one number per hole); single, double, augmented and hole-augmented operators are linear. Also: failure when samples of two edges coincide, exact values on a circle, logarithms, indicator data, preconditioner, totality of the constructor and of the solver given the sizes of the answers of gmres (an oracle). Arrays of another size are refused. The matrix collected column by column for debugging acts like its operator (C58_operator_matrix). The names of the strategies that are accepted (C58_strategies). A matrix of another size is refused (C58_matrix_refused)."
  },
  {
   "property": "C59",
   "status": "partial",
   "theorems": [
    "C59_round_centroid",
    "C59_centroid_refuted",
    "C59_bubble_laplacian_error",
    "C59_foreign_space",
    "C59_refused",
    "C59_dimension",
    "C59_vertex_keys",
    "C59_vertices",
    "C59_edges",
    "C59_edges_vanish",
    "C59_keys",
    "C59_centroid_area",
    "C59_monomials",
    "C59_monomial_value",
    "C59_bubbles",
    "C59_bubble_laplacian_partial",
    "C59_total",
    "C59_line_err",
    "C59_mesh",
    "C59_default_refuted",
    "C59_default_vertices_refuted",
    "C59_bubble_refuted"
   ],
   "note": "Dimension, distinct keys, vertex functions (1 at their vertex, 0 at others, agreement on shared vertices up to an explicit error), edge functions vanish at vertices, totality: proved for labelled edge spaces, which a mesh supplies (C59_mesh). Refuted for the default edge spaces of a cell with a reversed edge, for vertices without index, bubbles of very large cells are zero, and the centroid the bubbles are centred at is a mean of boundary points, not the centroid of the cell. The Laplacian of a bubble is its monomial exactly for centroids on a grid, and up to an explicit multiple of 1e-12 for every cell (C59_bubble_laplacian_error)."
  },
  {
   "property": "C60",
   "status": "partial",
   "theorems": [
    "C60_arithmetic",
    "C60_inverse",
    "C60_rejected",
    "C60_equality_partial",
    "C60_transitive_refuted",
    "C60_chain"
   ],
   "note": "Arithmetic, rejection, reflexivity and symmetry proved; transitivity of the tolerance equality refuted."
  },
  {
   "property": "C61",
   "status": "proved",
   "theorems": [
    "C61_terminates",
    "C61_independent",
    "C61_spanning",
    "C61_gram_symmetric",
    "C61_reduction",
    "C61_gram_entries"
   ],
   "note": "For any symmetric matrix given to the pivot loop; the SVD truncation is not modelled."
  },
  {
   "property": "C62",
   "status": "partial",
   "theorems": [
    "C62_init",
    "C62_effect",
    "C62_single",
    "C62_concat_refuted",
    "C62_refused",
    "C62_vals",
    "C62_edge"
   ],
   "note": "Construction, rejection, one edge and get_poly_vals are proved. For two or more edges the code writes every edge to the start of the array (idx never advances): C62_effect gives the exact result, C62_concat_refuted shows that it is not the array of all values."
  },
  {
   "property": "C63",
   "status": "partial",
   "theorems": [
    "C63_agrees",
    "C63_inner",
    "C63_total",
    "C63_other",
    "C63_interior_refuted",
    "C63_unset_refuted"
   ],
   "note": "Same data and inner products, totality and the type check are proved. Refuted: interior values (the code reads MeshCell.is_inside, which does not exist) and the ValueError for a missing biharmonic part (the attribute was never set, so AttributeError)."
  },
  {
   "property": "C64",
   "status": "proved",
   "theorems": [
    "C64_form",
    "C64_run",
    "C64_system",
    "C64_cells",
    "C64_total"
   ],
   "note": "Closes the basis and inner products that C47/C48 leave external. The low-rank factorization, GMRES, point containment and set iteration remain external. Example: the triangle, for every degree, form and right-hand side."
  },
  {
   "property": "C65",
   "status": "partial",
   "theorems": [
    "C65_no_samples",
    "C65_limits",
    "C65_contains",
    "C65_unsampled",
    "C65_figure",
    "C65_flat_refuted",
    "C65_save",
    "C65_bare_name_refuted",
    "C65_mesh_plot",
    "C65_mesh_plot_total",
    "C65_arrows"
   ],
   "note": "Holds for limits, aspect ratio, sampling and arrows. Refuted: edges all at one height give no finite figure size, and a file name without a directory cannot be saved (os.makedirs of an empty path)."
  },
  {
   "property": "C66",
   "status": "partial",
   "theorems": [
    "C66_empty",
    "C66_kind_refused",
    "C66_coefficients",
    "C66_ranges",
    "C66_missing",
    "C66_kinds",
    "C66_cell_edges",
    "C66_final",
    "C66_window",
    "C66_stale",
    "C66_stale_refuted"
   ],
   "note": "Holds for coefficients, ranges and window. The last clause is refuted: an edge between two cells is left along the cell with the larger number, so the other cell finds it reversed (C66_stale for every run, C66_stale_refuted for an annulus and the disc inside it). Unknown kinds of values are refused."
  },
  {
   "property": "C67",
   "status": "partial",
   "theorems": [
    "C67_deleted_refuted",
    "C67_deleted_refused",
    "C67_first_misfit",
    "C67_kinds_kept",
    "C67_setters_refused",
    "C67_parameter",
    "C67_size_refused",
    "C67_ticks",
    "C67_ticks_refuted",
    "C67_few_ticks",
    "C67_traces",
    "C67_traces_refused",
    "C67_twice_refuted",
    "C67_formats",
    "C67_drawn",
    "C67_setters",
    "C67_refused_kept_refuted",
    "C67_formats_kept_refuted"
   ],
   "note": "The parameters, refusals and curves hold, labels when the number of intervals divides the number of edges. Refuted: a DirichletTrace is drawn twice, so a legend or format list with one entry per trace is refused (C67_twice_refuted); in all other cases every inner label is wrong (C67_ticks_refuted); a refused DirichletTrace is kept and spoils later drawing (C67_refused_kept_refuted); new traces leave a format list of the wrong length, and curves are missing (C67_formats_kept_refuted); one tick is a division by zero (C67_few_ticks). The exception of each refused format or legend is proved. Refuted: an edge whose samples were deleted is accepted with a smaller quadrature and leaves two parameters zero (C67_deleted_refuted)."
  },
  {
   "property": "C68",
   "status": "partial",
   "theorems": [
    "C68_gradient",
    "C68_field",
    "C68_polynomial",
    "C68_component_rejected",
    "C68_drawn",
    "C68_values",
    "C68_kinds",
    "C68_skeleton",
    "C68_no_interp_refuted",
    "C68_log_refuted",
    "C68_function_kept",
    "C68_bound_refuted",
    "C68_stale_refuted"
   ],
   "note": "Holds with use_interp, while the edges are as they were when the function was built. Refuted: gradients below -1000 are drawn (C68_bound_refuted); after a neighbour was sampled the same plot shows the opposite gradient (C68_stale_refuted); every plot without use_interp raises an IndexError (C68_no_interp_refuted); on a logarithmic scale such a plot overwrites the values of the function (C68_log_refuted)."
  },
  {
   "property": "C69",
   "status": "proved",
   "theorems": [
    "C69_sides",
    "C69_builder",
    "C69_square",
    "C69_pacman",
    "C69_subdiv",
    "C69_curves",
    "C69_laid",
    "C69_matched"
   ],
   "note": "For the builder, vertices are at least 1e-6 apart. Real arithmetic: the decimal constants of the figures are exact."
  },
  {
   "property": "C70",
   "status": "partial",
   "theorems": [
    "C70_leading",
    "C70_spans",
    "C70_small",
    "C70_wide_refuted",
    "C70_samples_refuted"
   ],
   "note": "Holds when the leading coefficients survive the cutoff in the coordinates of the box (C70_spans, C70_leading), in particular on all edges that fit in a box of width two (C70_small); for edges with two ends also no coefficient of the three linear functions may be dropped. Refuted on large edges: where the samples reach a million far, all traces are affine whatever the degree (C70_wide_refuted), so x^2 is not matched even on the samples (C70_samples_refuted)."
  },
  {
   "property": "C71",
   "status": "proved",
   "theorems": [
    "C71_read",
    "C71_alike",
    "C71_same",
    "C71_effect"
   ],
   "note": "For every text of the coefficients without closing parenthesis that reads back, which Python's text of a float is; this text is an argument of the model."
  },
  {
   "property": "C72",
   "status": "partial",
   "theorems": [
    "C72_library",
    "C72_curves",
    "C72_unknown_refuted",
    "C72_set",
    "C72_set_refused",
    "C72_set_refuted",
    "C72_stuck_refuted",
    "C72_library_names"
   ],
   "note": "Proved: the ten names and their curves, sequences of valid names, the exact condition of set_curve_type. Refuted: any str is accepted while the current name has a file; a misspelt name can never be replaced; the constructor takes any name and the sampling raises."
  },
  {
   "property": "C73",
   "status": "partial",
   "theorems": [
    "C73_outcomes",
    "C73_sampling_outcomes",
    "C73_methods_unchanged",
    "C73_join_refused",
    "C73_join_refuted",
    "C73_sampling_refused",
    "C73_sampling_refuted"
   ],
   "note": "Proved for every method but join_points and for a wrong quad_type; what the others leave is stated exactly. Refuted: a refused join_points stays in the diary and every later sampling fails; a sampling that fails in the diary leaves an edge flagged as sampled with the untransformed curve."
  },
  {
   "property": "C74",
   "status": "partial",
   "theorems": [
    "C74_mesh",
    "C74_mesh_succeeds",
    "C74_mesh_fails",
    "C74_open_refuted",
    "C74_local",
    "C74_local_fails",
    "C74_skeleton_refuted",
    "C74_local_handle",
    "C74_colors_refuted",
    "C74_glob_idle",
    "C74_glob",
    "C74_glob_succeeds",
    "C74_glob_fails",
    "C74_kind_refuted",
    "C74_bar_refuted",
    "C74_axis_refuted",
    "C74_trace",
    "C74_local_current"
   ],
   "note": "Proved: what a successful plot draws, saves, shows and closes, when plots succeed, and what a failed one leaves. Refuted: a file name without a directory, an unknown kind of plot and a function without interior values leave a figure open; the colour map of one plot is the default of the next; the colour map of a global plot reaches the bar only; show_axis of a global plot has no effect."
  },
  {
   "property": "C75",
   "status": "partial",
   "theorems": [
    "C75_eval",
    "C75_eval_repeated",
    "C75_growth",
    "C75_exact",
    "C75_exact_repeated",
    "C75_consolidate",
    "C75_add",
    "C75_add_error",
    "C75_add_commutes",
    "C75_add_associative_refuted",
    "C75_mul_commutes_refuted",
    "C75_canonical_refuted",
    "C75_eval_finite_refuted"
   ],
   "note": "Proved: the error of evaluation for any power function of given accuracy and for repeated multiplication, exactness on integers, the canonical form of lists with finite coefficients, the coefficients of sums and their errors, commutativity of addition. Refuted: addition is not associative, multiplication does not commute (the products are added in the order of the left factor), a sum with infinite coefficients loses the canonical form (a duplicate NaN term), and a finite polynomial can have the value NaN at a finite point."
  },
  {
   "property": "C76",
   "status": "proved",
   "theorems": [
    "C76_boundary",
    "C76_boundary_weighted",
    "C76_contour",
    "C76_contour_weighted",
    "C76_boundary_refused",
    "C76_boundary_monotone",
    "C76_boundary_nonneg",
    "C76_contour_refused",
    "C76_single_point",
    "C76_preweighted",
    "C76_over_edge",
    "C76_refused",
    "C76_monotone",
    "C76_nonneg",
    "C76_from_left",
    "C76_halves",
    "C76_from_left_position"
   ],
   "note": "The step 2*pi/(num_pts-1) is within two roundings of the exact one; numpy.pi is compared with PI by the series of the standard library. Summation from left to right and in halves are shown to be orders, with their depths. Integrals over contours and over whole boundaries have the same kind of bound (C76_contour, C76_boundary and the weighted forms, whose weights may themselves be rounded); they are refused as with real numbers, monotone and nonnegative."
  },
  {
   "property": "C77",
   "status": "proved",
   "theorems": [
    "C77_solver_state",
    "C77_whole",
    "C77_mesh",
    "C77_space",
    "C77_adds_up",
    "C77_alike",
    "C77_form",
    "C77_form_poly",
    "C77_solver",
    "C77_edge",
    "C77_vert",
    "C77_quad",
    "C77_progress",
    "C77_progress_width",
    "C77_solver_built"
   ],
   "note": "The reader splits lines and keys without using the printers. Python's text of a float is an argument; the theorems ask that it be one line and, for vertices, without comma or bracket."
  },
  {
   "property": "C78",
   "status": "proved",
   "theorems": [
    "C78_flux_refused",
    "C78_boundary",
    "C78_flux",
    "C78_h1",
    "C78_flux_commutes",
    "C78_l2",
    "C78_four",
    "C78_int_poly"
   ],
   "note": "Doubles are Flocq's binary64 numbers with rounding to nearest even. Hypotheses: the result is finite; the power function is accurate in the stated sense (repeated products are)."
  },
  {
   "property": "C79",
   "status": "proved",
   "theorems": [
    "C79_edge",
    "C79_second_order",
    "C79_boundary",
    "C79_function",
    "C79_polynomial",
    "C79_cone",
    "C79_rectangle",
    "C79_shapes",
    "C79_pegboard",
    "C79_pegboard_runs",
    "C79_area",
    "C79_products"
   ],
   "note": "Real numbers. Line integrals are Riemann integrals (Coquelicot); area integrals are iterated ones, in polar coordinates for discs. Hypothesis: the curves are smooth with nonzero velocity on the parameter interval."
  },
  {
   "property": "C80",
   "status": "partial",
   "theorems": [
    "C80_missing",
    "C80_accepted",
    "C80_refused",
    "C80_unchanged",
    "C80_stored",
    "C80_stored_edges",
    "C80_no_key",
    "C80_stored_index",
    "C80_untyped",
    "C80_frame",
    "C80_history",
    "C80_history_none",
    "C80_key_kept",
    "C80_key_reset",
    "C80_key_init",
    "C80_key_init_accepts",
    "C80_key_refuted",
    "C80_key_agrees",
    "C80_form",
    "C80_form_last",
    "C80_form_refuted",
    "C80_space_refuted",
    "C80_space",
    "C80_solver",
    "C80_locplot",
    "C80_degree_refuted",
    "C80_function_partial",
    "C80_function_two",
    "C80_function_refuted",
    "C80_function_values"
   ],
   "note": "Proved for single calls and for sequences of calls. Refuted: set_fun_type leaves the indices of the former kind, constants of a form are unchecked, the constructor of a global space raises AttributeError instead of TypeError for a value that is not a mesh, raising the degree of a finished space leaves the numbering stale, is_Func_R2_R miscounts parameters that are not plain."
  },
  {
   "property": "C81",
   "status": "proved",
   "theorems": [
    "C81_edge",
    "C81_boundary",
    "C81_cone",
    "C81_shapes",
    "C81_pegboard",
    "C81_circles_exact",
    "C81_pegboard_runs"
   ],
   "note": "In exact arithmetic. The constant C exists but is not computed; the number of points is 2n + 1 per edge."
  },
  {
   "property": "C82",
   "status": "proved",
   "theorems": [
    "C82_total",
    "C82_cells",
    "C82_pegboard",
    "C82_large",
    "C82_shapes",
    "C82_square"
   ],
   "note": "In exact arithmetic, with or without values and gradients inside the cells. GMRES and the containment test are oracles; on pegboards and other meshes of rectangles and discs containment is a given test that is exact for rectangles and for the centre of circles. Holes must have at least the tolerance as radius and stay inside their squares."
  },
  {
   "property": "C83",
   "status": "partial",
   "theorems": [
    "C83_outcome",
    "C83_left",
    "C83_retry",
    "C83_interior",
    "C83_flag_refuted",
    "C83_grid_refuted",
    "C83_point",
    "C83_edge"
   ],
   "note": "The last sentence fails (C83_flag_refuted, C83_grid_refuted): after an InteriorPointError the guard lets the cell pass and num_pts is an AttributeError; with different numbers of rows and columns all points of the grid over the box stay as interior points. The rest is proved for edges as constructed or transformed without joining points; sampling itself changes the others."
  },
  {
   "property": "C84",
   "status": "proved",
   "theorems": [
    "C84_samples",
    "C84_again",
    "C84_second",
    "C84_combo",
    "C84_script"
   ],
   "note": "C84_samples needs no hypothesis on edges or quadrature. In C84_again the first run is on a fresh space and on edges as constructed; the flags of both runs are the same. That the keys are appended once more is C50_twice_refuted; C84_combo shows that combinations are not affected."
  },
  {
   "property": "C85",
   "status": "proved",
   "theorems": [
    "C85_less",
    "C85_flags",
    "C85_failure",
    "C85_script",
    "C85_second"
   ],
   "note": "No hypotheses on the edges except in C85_second, where the space is fresh and the edges are as constructed, as in C84. That a run with flags ends is C64, C66 and C82."
  },
  {
   "property": "C86",
   "status": "proved",
   "theorems": [
    "C86_constants",
    "C86_matrices",
    "C86_load",
    "C86_second"
   ],
   "note": "C86_constants has no hypothesis except equal right-hand sides. C86_load assumes that both runs end. C86_second is for a second solver over a used space, as in C84."
  },
  {
   "property": "C87",
   "status": "partial",
   "theorems": [
    "C87_translate",
    "C87_back",
    "C87_apart_refuted",
    "C87_dilate_refused",
    "C87_dilate",
    "C87_nan_refuted",
    "C87_reverse",
    "C87_ortho",
    "C87_rotate",
    "C87_rotate_curvature",
    "C87_reflect",
    "C87_reflect_twice"
   ],
   "note": "Error bounds and exact cases proved. Refuted: translation keeps different points apart and can be undone; a dilation by NaN is refused."
  }
 ]
}
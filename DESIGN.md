# Design of the PuncturedFEM model

The source in `/repo` is read as text. It is never run. Everything below lives in
`rocq/theories/` (logical name `Verif`, Coq 8.16.1).

## Layout

Each area of the code has up to four files:

* `<Area>Model.v`: the functions of the code, as total Gallina functions. No proofs.
  Every definition cites the file and lines it models, and says where it simplifies.
* `<Area>Spec.v`: small definitions used to state properties without the model's helpers
  (coefficient maps, calculus derivatives, partitions, matrices of sums).
* `<Area>Proofs.v`: lemmas.
* `<Area>Props.v`: only the property theorems (`exact lemma.`), `Print Assumptions`, and
  `Example`s showing that a concrete non-trivial case meets the hypotheses.

## Modelling conventions

* Python exceptions are values: `res A := Ok a | Err e`, with `e` naming the exception class.
* A method that mutates becomes a function that returns the new state. Where aliasing is the
  point (C11, C13, C29, C43), the heap or the iteration order is explicit.
* Loops are structural recursion or folds. A loop without a static bound gets fuel and a
  dedicated out-of-fuel error. A theorem either excludes that error or proves non-termination
  for every fuel.
* Numbers. Python integers are `nat`/`Z`. Python and numpy floats are real numbers (`R` of the
  standard library): the theorems are about exact real arithmetic, with all tolerances (1e-12,
  1e-6, 1e-4) kept as real constants exactly where the code has them. The exceptions are C02,
  C75 and C76, which model IEEE double precision (Flocq). The polynomial code is written over a record
  of scalar operations with two instances: real numbers for the theorems and rationals for
  `vm_compute` examples.
* numpy arrays of one dimension are lists. `(2,n)` arrays are lists of pairs. Shape errors are
  modelled as `Err` values.
* External code is a parameter of the definitions: point-in-polygon (matplotlib), Delaunay
  triangulation, FFT as the defining sums, GMRES/spsolve as "any solution", SVD as "any matrix".

## Trusted base

* Coq's kernel (8.16.1), and the stdlib axioms printed by `Print Assumptions`: for theorems
  over `R`, `ClassicalDedekindReals.sig_forall_dec`, `ClassicalDedekindReals.sig_not_dec`,
  `FunctionalExtensionality.functional_extensionality_dep`, and `Classical_Prop.classic` or
  `Epsilon`-type axioms where Coquelicot or Flocq is used. Discrete theorems are closed.
* The reading of the Python source into the model. Rounding error is outside the model except
  in C02.

## Properties

| id | modelled | proof |
|----|----------|-------|
| C01 | MultiIndex set/set_from_idx over nat with exact sqrt | triangular-number arithmetic |
| C02 | set_from_idx with binary64 sqrt, sub, div, floor (Flocq) | rounding analysis below 2^50; witness beyond |
| C03 | Polynomial operators over monomial lists | normal form preserved by each operator, induction on expressions |
| C04, C05 | same | coefficient maps: consolidation yields thresholded coefficient sums; evaluation is a sum over the map |
| C06, C07 | Monomial/Polynomial derivatives | `derivable_pt_lim` of the evaluation function |
| C08 | anti_laplacian | coefficient-map identity for the Laplacian of r^(2k) Lap^k m, telescoping |
| C09 | pow, compose | induction, evaluation homomorphism under a no-drop condition |
| C10 | `__eq__` | characterisation; transitivity refuted by witness |
| C11 | `+=` as iteration over a live list | equality with add for distinct objects; non-termination for self |
| C12 | evaluation over array shapes with broadcasting errors | pointwise theorem; witness for scalar/array |
| C13 | heap of monomial objects | frame theorem for operators; refuted independence of copy |
| C14, C15 | Legendre recurrences over exact polynomials | induction on degree; no-drop condition explicit |
| C16 | barycentric | algebra over R; clockwise witness |
| C17 | build_spanning_set's endpoint correction, pivot selection | value lemmas; sublist invariant of the loop |
| C18 | integrate_poly | divergence identity + linearity |
| C19 | Quad trap | trigonometric sums |
| C20 | Kress map | calculus on the map, algebraic positivity |
| C21 | Martensen weights, dispatch on name | trig sums; dispatch refuted |
| C22-C24 | edgelib curves over R | `derivable_pt_lim`, algebra |
| C25-C30 | Edge state with samples and diary | per-sample geometry relation preserved by each method |
| C31, C32 | split_edge | similarity uniqueness; argument case analysis |
| C33, C34 | sums over lists | list algebra |
| C35 | bounding box | order reasoning |
| C36 | incidence, traversal | permutation cycles |
| C37, C38 | index tables | prefix sums |
| C39 | outer boundary search with an oracle for containment | case analysis; witness for the last position |
| C40 | boundary sums | list algebra; witness for unequal sample counts |
| C41 | grid filtering with oracle | list filtering; witness for rows != cols |
| C42 | masks | list membership; witnesses |
| C43 | shared edge store | witness |
| C44, C45 | PlanarMesh | list reasoning |
| C46 | pegboard | index arithmetic over all sizes |
| C47 | numbering | arithmetic over prefix sums |
| C48-C50 | triplet lists, assembly folds | sums over triplets |
| C51, C52 | DirichletTrace | list segments |
| C53, C54 | LocalPoissonFunction over abstract boundary operators | linearity |
| C55, C56 | closed forms | partial derivatives, complex algebra |
| C57 | DFT sums | roots-of-unity orthogonality |
| C58 | block assembly, operators, solver with gmres as oracle | assembly by folds; entries; linear algebra |
| C59 | local space: keys, traces, bubbles, over labelled edge spaces | folds over traces; refuted for default edge spaces |
| C61 | pivoted Cholesky selection | induction over the pivots |
| C60 | Vert | algebra; transitivity refuted |
| C62 | PiecewisePolynomial, poly_eval | loops over edges; refuted for two or more edges |
| C63 | LocalFunction | inversion of LocalPoissonFunction's construction; refuted interior values |
| C64 | BilinearForm, whole runs | fold invariant: clearing the samples of the heap gives the mesh; C47/C48/C54/C59 for each cell |
| C65 | plot windows, mesh plots, ranges of global plots | fold invariant of exact bounds; heap frame |
| C66 | GlobalFunctionPlot, edges after a run | fold invariants; last writer of each edge |
| C67 | TracePlot: parameters, ticks, setters | fold over the edges; arithmetic of marks; invariants of calls |
| C68 | LocalFunctionPlot: boundary gradients, masks, scales | pointwise inversion of array operations; orthonormal frames; witnesses on the disc |
| C69 | mesh_builder, square_circular_hole, pacman, pacman_subdiv | cells computed from the numbers of the vertices; curves by uniqueness of the joining similarity; plane geometry |
| C70 | EdgeSpace: span of the traces | triangular family by leading terms; linear functions by hand |
| C71 | Monomial and Polynomial: printed text | reader written separately; induction over the text |
| C72 | Edge: names of curves | file test as argument; sequences of calls as folds |
| C73 | Edge: state after an exception | methods with the edge that is left |
| C74 | Plots: figures | open figures, default colours and output as a state; failure as a value |
| C75 | Polynomials in doubles | IEEE doubles of Flocq with rounding to nearest even; PolyModel over these scalars; x**n as an oracle |
| C76 | Integrals in doubles | integrals over edges, contours and boundaries with IEEE doubles; the order of numpy.sum as an oracle |
| C77 | Texts of objects | __str__ and __repr__ of meshes, spaces, edges, vertices, rules, forms, solvers; progress lines |
| C78 | Inner products in doubles | flux and Green products, four blocks, integrals of polynomials |
| C79 | Convergence of integrals | edges, boundaries, polynomials over cells bounded by rectangles and circles, pegboard cells |
| C80 | Setters | 30 setters of the package, constructors made of them, is_Func_R2_R |
| C81 | Order of convergence | the rules of C19 and C20 on edges and cells |
| C82 | The script ends | the pipeline of C64 on the meshes of C44 and C46 |
| C83 | Failed samplings of cells | CellFaultModel: the state that every step of the sampling of C37 and C39 leaves |
| C84 | Repeated assembly | AgainProps: the run of C64 on edges with samples and on used spaces |
| C85 | Flags for values inside | FlagProps: the run of C64 with different flags |
| C86 | Other forms | ConstProps: the run of C64 with other constants or another right-hand side |
| C87 | Edges in doubles | FloatEdgeModel: columns of the sample arrays as doubles; error bounds, exact cases and refuted cases |

The last sections of this file record, per area, the findings and the assumptions of each
theorem. They are updated with each milestone.

## Area notes

### Polynomials (C01, C03-C13)

* The cutoff 1e-12 applied by `Monomial.set_coef` makes operations inexact. Theorems come in
  two forms: exact under an explicit no-drop or lattice condition, and an error bound in terms
  of the cutoff for every polynomial.
* Refuted: unconditional distributivity (C05), rejection of unknown variable names for the zero
  polynomial (C06), anti-Laplacian as right inverse for all coefficients (C08), transitivity of
  `==` (C10), `p += p` terminates (C11), scalar x with array y (C12), independence of `copy`
  (C13).
* PrintProps2 (also C47_untyped, C77) says exactly which commands of C13 are refused and with which exception.

### Floating point index decoding (C02)

* `MultiIndex.set_from_idx` with IEEE binary64 from Flocq. Correct for every index below
  2^53 + 2^26 - 1. At that index `math.sqrt` rounds up and a `ValueError` is raised. Every other
  area uses real arithmetic.

### Legendre, barycentric, edge spaces, polynomial integration (C14-C18, C61)

* Legendre and integrated Legendre polynomials are exact for degrees up to hundreds of
  thousands; the hypothesis states the bound. `legendre_polynomials(0)` returns two entries.
* Barycentric coordinates are nodal for counterclockwise triangles only; distinct collinear
  points are not rejected.
* In `EdgeSpace`, `Edge.integrate_over_edge` is an arbitrary functional and the SVD truncation
  an arbitrary matrix function. The loop `fun /= ...` rebinds a local and has no effect, so it
  is absent from the model. Division by a zero-width bounding box is an unspecified real.
* C61 is about the pivot loop. Positive semidefiniteness is not assumed.

### Quadrature (C19-C21)

* `Quad` over the reals. `kress_wgt` is the derivative of `kress_node`, so the substitution rule
  holds exactly.
* Refuted: the Martensen rule at degree n (the last term of the weight sum is not halved) and
  the long name `martensen`, which falls through to the trapezoid weights.

### Curves (C22-C24)

* Each module of `edgelib` is a constructor of `curve`; options are an association list.
  Derivatives use Coquelicot's `is_derive`.
* scipy's `CubicSpline` is external: the spline constructor carries three functions, and the
  derivative theorem assumes they are derivatives of each other.
* Refuted: a sine wave of non-integer frequency does not end at (1,0); a circle of radius zero
  is accepted and has zero speed.

### Vertices (C60)

* Coordinates are reals, so the type checks of `set_coord` have no counterpart.
* Refuted: equality within 1e-12 is not transitive.

### Edges (C25-C35)

* An edge stores one list of samples instead of five arrays; points are complex numbers in the
  specification, and every history acts as one similarity on the jet of the curve.
* `edge.parameterize` rebinds the diary when it contains a join. Only the last join survives, so
  a second call may differ from the first (C29 refuted).
* In `join_points` the arrays `x` and `y` are views that the following translation changes in
  place. Only their difference is used afterwards, so the model keeps the values.
* A negative dilation leaves tangent and normal unchanged and flips only the curvature (C25, C26
  refuted).
* Splitting rebuilds every piece from the curve on a subinterval and joins it to the two end
  points. The join uses a rotation and a dilation, so a reflected edge is not retraced (C31
  refuted). An empty list of split points ends in `UnboundLocalError` and a list argument is
  sorted in place (C32 refuted).
* `integrate_over_edge(..., ignore_endpoint=True)` cuts one more sample from an array that is
  already short by one (C33 refuted). The dot products slice `[:-0]` when the endpoint is kept, so
  they always fail there (C34 refuted).
* `get_bounding_box` widens thin boxes from the lower side only, so points are cut off when the
  larger spread is between one and two tolerances (C35 refuted).

### Contours and cells (C36-C43)

* Edges are shared objects, so a cell works on a heap (a list of edges) and refers to edges by
  position. Every method that changes edges returns the new heap. An exception discards it.
* matplotlib's `Path.contains_point` is an oracle `contains tol path point`. Theorems hold for
  every oracle; examples use a disc.
* `meshconst` returns the sampled boundary of one cell after `parameterize`. The attribute values
  that Python leaves unset are `None` in the model.
* Refuted: `closest_vert_idx` of a hole is counted from the start of the contour (C38).
* Refuted: the outer component ends up first only when it is listed before the last place. The
  search stops one short, so a hole listed first stays first (C39).
* Boundary integrals equal the sum of edge integrals except for the end samples, which cancel
  under Kress sampling and on closed curves with matching weights. Trapezoid sampling at a corner
  loses half an end weight on one side (C40 refuted).
* Interior points are exact for square grids. A grid with different numbers of rows and columns
  always ends in `IndexError` (C41 refuted).
* The boundary mask tests the two coordinates separately and the hole mask compares only
  difference vectors, so both are wrong for suitable point sets (C42 refuted).
* Parameterizing a neighbour with the opposite orientation turns the samples of a shared edge
  around under the first cell (C43 refuted). Cells without common edges do not interfere. When the
  second cell uses another number of points, the tables of the first no longer fit its edges and it
  refuses everything (StaleProps.v).
* matplotlib's triangulation is an arbitrary list of index triples.

### Meshes (C44-C47)

* `mk_mesh` works on the same heap of edges as cells do. Numbering writes `idx` into the shared
  edges.
* The constructor builds its tables once. An edge added later is in no table, and a second mesh
  over the same edges renumbers them under the first (C44 refuted).
* `pegboard` is modelled for all sizes. Vertex labels determine the contours of a cell
  (`Labels.v`), so `get_cell` is computed without evaluating any geometry.
* Refuted for C46: `size=(m,n)` has m rows in y and n columns in x; a hole of radius 1/2 or more
  touches the sides; with more than 10^6 cells on a side the contour tolerance merges distinct
  vertices and `get_cell` fails.
* `GlobModel.v` takes the numbers of edge functions as data. A key index one too large is accepted
  as a function of the next cell or edge, and building a cell twice lists its functions twice (C47
  refuted).

### Solver (C48-C50)

* The local function spaces are external: their keys, inner products and loads are arbitrary
  functions of cell and position. Five parallel lists are one list of entries; a sparse matrix is
  the function of its summed entries, and `spsolve` is arbitrary.
* The code evaluates each pair of local functions once, with the earlier one first. `upper` in the
  specification says this; for symmetric inner products it disappears.
* Boundary rows are multiples of identity rows: the diagonal is the number of contributions (C49
  refuted for "identity", solutions still vanish).
* `soln` is only annotated in the class body, so `get_solution` before `solve` raises
  `AttributeError`; coefficients below 1e-4 are dropped; a second solver over the same space
  doubles the coefficient vectors (C50 refuted).

### Traces (C51, C52)

* A trace holds its edges as values, so re-parameterizing an edge after the trace was built is not
  modelled. Arrays are written with `set_slice`; functions are an abstract type with an evaluation.
* The theorems range over every trace reachable by the setters (`reach`).
* Refuted for C51: a list of scalars is refused; the length of a list is not checked;
  `set_funcs_from_polys` always fails since `Polynomial` has no `eval`; `set_func_on_edge` leaves
  the old values; a default trace has no values.
* Arithmetic never compares edges: traces over different edges with equal sample counts are
  combined by position (`C52_by_position`).

### Local functions (C53-C56)

* The boundary solver (`nyst`) is an oracle: conjugate, tangential derivative, anti-Laplacian and
  the logarithmic coefficients are arbitrary functions. Totality theorems assume that they return
  arrays of the right length (`tame`).
* The theorems range over every function reachable by construction and arithmetic (`locfun`) on a
  cell that is parameterized (`ready`).
* The cutoff 1e-12 of the polynomial arithmetic makes the polynomial part lose terms
  (`C53_laplacian_refuted`: x^16 y^6) and the inner products lose bilinearity
  (`C54_bilinear_refuted`: gradient products below the cutoff, then scaled by 10^6). Positive
  results state the condition: coefficients on a grid whose products stay above the cutoff.
* The blocks that are boundary integrals are bilinear without condition. The order of the arguments
  enters only through the harmonic block.
* Interior values (C56) are stated away from the boundary samples and the hole centres: numpy divides
  by zero there. The stored values are the polynomial, the logarithms and the discrete Cauchy sum
  with the weight of each edge; without the gradient flag the gradient arrays stay zero.

### Spectral differentiation (C57)

* numpy.fft.fft and ifft are the documented sums in exact complex arithmetic (Coquelicot's C).
* The specification is trigonometric polynomials with the frequencies that N samples resolve
  (`resolved`); the transform does not occur in it.
* For even N the antiderivative loses the alternating mode (`C57_inverse_refuted`). Every component of
  a parameterized cell has an even number of samples, so this happens on every cell
  (`C57_cells_refuted`).

### Anti-Laplacians (C55)

* antilap.py is modelled line by line on arrays. The Neumann solver of nystrom.py is an oracle
  (`as_neumann`), and so are the traces eta that the solver holds.
* A hole centre on a boundary sample and a component of length zero divide by zero in numpy; the model
  has no counterpart of inf and nan, and the theorems exclude both.
* The specification (AntilapSpec.v) is real analysis: gradients, Laplacians and conjugates of functions
  of two variables on a set U. The theorems about whole arrays say that the result is the samples of a
  function with the required Laplacian, and of its weighted normal derivative.
* What a numerical solver and a finite number of samples cannot give exactly is a hypothesis:
  `resolved_on` (the antiderivative is a trigonometric polynomial that the samples resolve) and `solved`
  (the solver is exact for this function).
* `C55_residues` is about integrals over curves in polar form, not about the quadrature.
* `C55_total` and `C55_tame`: on arrays of the right sizes the code always returns, so the solver
  that C53 and C56 assume (`tame`) can be built from this code; what remains assumed is the size of the
  answers of the Neumann and harmonic conjugate solvers (`solver_fits`).
* RingCell.v builds the cell between two circles that the example of `C55_multiply` uses.

### Boundary integral operators (C58)

* nystrom.py is modelled block by block: slices of numpy matrices become `set_block`, the loops over
  components and edges become folds. `np.log` of a number below the smallest positive double is not
  modelled; the matrices contain real logarithms, and equal samples of one edge are excluded by
  `separated`.
* scipy's gmres is an oracle (`gm`) that gets the operator, the right-hand side and the preconditioner.
  Theorems about operators and matrices do not use it. Totality (`C58_solver`) assumes only that it
  returns an array of the size of the right-hand side (`solves_sizes`).
* The specification (NystromSpec.v) lists the samples of the boundary as points with edge and index
  (`cell_grid`) and gives the entry for a pair of points (`double_entry`, `single_entry`).
* The constructor does not compare samples of two edges before it divides: if they coincide, it fails
  (`C58_double_refused`). `C58_matrices` says that otherwise it returns, up to 2 * 10^7 intervals per
  edge; beyond that the guard 1e-14 in the code would treat neighbours as equal.
* With `C58_solver`, everything that C53, C55 and C56 assume about the solver (`tame`) is a theorem about
  nystrom.py and antilap.py, except for gmres.

### Local function spaces (C59)

* local_space.py, the constructor of edge_space.py on sampled edges, and the lines of globfunsp.py that
  hand edge spaces to a local space. numpy's SVD, gmres and the order in which a Python set is traversed
  (`set_iter`, assumed to be a permutation) are oracles.
* The theorems assume edge spaces labelled for the edges (`labelled`); `C59_mesh` proves it for spaces
  that come from a mesh, together with `nodal` and `vanishing` up to an explicit error (`line_err`,
  bounded in `C59_line_err`). Spaces of the local space's own making are labelled as well.
* Findings. A space that makes its own edge spaces takes them from the sampled edges of the cell, which
  are reversed where the cell runs against the edge, so vertex functions jump at shared vertices
  (`C59_default_refuted`). Vertices without index share one function (`C59_default_vertices_refuted`).
  For areas above 10^6 the factor -1 / area^2 falls below the coefficient cutoff and all bubbles are zero
  (`C59_bubble_refuted`). The centroid is the unweighted mean of the boundary points: for cells bounded by
  circles the mean of their centres (`C59_round_centroid`), which is not the centroid (`C59_centroid_refuted`).
* For edge spaces from a mesh the statement holds: dimension, keys, values at vertices, zero elsewhere,
  Laplacian of the bubbles (centroids on a grid, `C59_bubble_laplacian_partial`), totality.
* TriCell.v builds the triangle with corners (0, 0), (s, 0), (0, s), with one side traversed backwards;
  it is the example of all C59 theorems.

### Piecewise polynomials (C62)

* `eval_on_edges` never advances `idx`, so each edge overwrites the previous one and the rest of the
  array stays zero (`C62_effect`, `C62_concat_refuted`). With one edge the result is right.
* `numpy.array` of rows is a list of lists. The list passed to `set_polys` is not checked by the code;
  the model takes a list of polynomials.

### Deprecated local functions (C63)

* LocFunModel.v is a separate model of locfun.py; C63 compares it with LocalModel.v for an arbitrary
  solver. The trace of the polynomial part is filled from a function here and from an array there.
* `compute_interior_values` reads `self.nyst.K.is_inside`. No class sets that attribute, so line 323
  raises AttributeError and the rest of the method is never executed; it is not modelled.
* With `compute_for_l2=False` the attribute `biharmonic_trace` does not exist, so the check
  `biharmonic_trace is None` raises AttributeError.

### Whole runs (C64)

* AsmModel.v puts mesh, edge spaces, local spaces and solver together: `script` is a run of
  PlanarMesh, GlobalFunctionSpace and Solver. SolverModel.v takes basis and inner products as
  arguments; C64_run shows that `script` is that solver with the basis and the inner products of
  the local spaces built on the way. So C47 to C49 hold for real local functions.
* Edges are shared between cells, and the code leaves the edges of a cell sampled (and reversed,
  where the cell runs along them backwards). The invariant is that clearing all samples gives back
  the edges of the mesh; `parameterize` depends only on the cleared edge.
* C64_total asks that each cell's space can be built from every heap that clears to the mesh.
  C64_example proves this for a triangle.
* `Solver.solve` after assembly is C49; plots are not part of a run.

### Plots (C65)

* PlotModel.v has the computations of plot_util.py, mesh_plot.py and globfun_plot.py: limits,
  figure sizes, directory names, which edges are sampled, arrows and colour ranges. Drawing by
  matplotlib is not modelled, nor is print_color.py.
* Infinite initial limits are `None`. A figure size that numpy computes as inf or nan is `None`.
* MeshPlot works on deep copies, so the model's heap is a copy of the caller's.
* `save_figure` gives the list of file system actions, or `None` for FileNotFoundError. Whether a
  path exists is an argument.

### Plots of solutions (C66)

* C66_final states what a run leaves: every edge of the mesh sampled along its cell with the larger
  number. The invariant is that after k cells each edge is as the last of its cells among them made it.
* Cells share their edges and `parameterize` of a cell reverses edges in place. So functions of the
  first of two neighbours keep traces along an edge that is reversed later. Assembly is not
  affected (C64), but gradient plots are (C68).
* The linear combinations that are plotted are C50; here they are an argument.

### Plots of local functions (C68)

* nan and inf entries are `None`. The triangulation and its two masks are arguments: their
  construction uses matplotlib.
* `grad_component` takes the heap at the time of drawing, because the plot reads normals, tangents
  and weights from the edges while the function keeps the derivatives of the time it was built.
  C68_gradient is about any heap whose edges have as many points.
* C68_field says what the arrays mean: if the stored derivatives are those of a field, the plot shows
  its component. C68_polynomial discharges that hypothesis for solvers that answer zero for zero data.
* The function is returned with the plot, because a logarithmic plot without boundary values floors
  the caller's array in place.

### Plots of traces (C67)

* A tick label is modelled by the coefficient of pi it shows, not by its text.
* Setters return the plot afterwards also when they raise, because set_traces fills the list before
  it checks.
* title and show_grid only reach matplotlib and are left out.
* C67_ticks_refuted is about every number of edges that the number of intervals does not divide. The
  marks are spread over one interval too few.

### Meshes of the library (C69)

* `mesh_builder` takes the list of vertices and a function for the edges; printing is left out. A
  list of edges is a list of `call`s, the arguments of each Edge.
* LibSpec has the tables of curves, cells and regions, with coordinates written out. C69_square,
  C69_pacman and C69_subdiv say that the meshes realise the tables; C69_laid and C69_matched say
  that the tables are plane figures. The contour algorithm compares coordinates; its run is
  computed with numbers of vertices, which is the same because vertices keep a distance of 1/25.

## What the cutoff costs (C08, C09, C53, C54, C59)

`PolyErr.v`, `PolyErr2.v`, `PolyErr3.v` and `ErrProps.v` bound the effect of dropping coefficients
below 1e-12 without any condition on the coefficients. Inside `anti_laplacian` the powers of
x^2 + y^2 and the repeated Laplacians of one monomial stay on a grid and are exact; only the scaled
products and the accumulation lose something, at most (2k + 1) cutoffs after k steps. The monomials
of one degree in a canonical polynomial are at most n + 1, which gives the bound for a whole
polynomial. Products, powers and composition are bounded through the number of bare monomials at
the point (`msize`), which no operation increases. `LocalErrProps.v` carries this to the inner products:
sums and multiples of local functions are respected up to a multiple of the cutoff that depends on
the degree, the size of the coefficients and the size of the boundary quadrature.

## Refusals, products and sampling again (C16, C25, C29, C33, C36, C53, C58, C66, C67)

`KindProps.v` states which exception each refused argument raises where earlier theorems only said
that it is refused, gives the attributes of a new edge, and describes broadcasting by a relation
(`broadcasts`) that mentions entries only. `BaryProps2.v` characterises the products of barycentric
coordinates. `DeparamProps.v` lifts C29 from edges to cells: two heaps whose edges have the same
descriptions are sampled alike, so deparameterize followed by parameterize gives back the cell.
`GuardProps.v` does the same for the constructor of contours (C37), kinds of keys (C47), functions set on one
edge (C51), differences of parts (C53), names of strategies (C58) and plots over deleted edges (C67). `SolverProps3.v` bounds the error of the cutoff in
linear combinations for every linear functional (C50). `GuardProps2.v` adds global indices (C47), values on all edges (C51), sums in place (C53) and
transforms without derivatives (C55). `GuardProps3.v` says what a sum of a polynomial and a monomial is (C04), that the direct
method needs the conjugate problem (C55) and that spaces refuse functions of another mesh cell (C59).
These files answer mutants that had survived. `GuardProps4.v` covers keys for a cell that the
space does not have (C47), functions that are no polynomials (C51), inner products without normal derivatives (C53), empty
arrays in plots (C65, C66), the error and the rest of the first trace that does not fit (C67), the kinds of formats and legends
of a plot after any calls (C67), and a plot on the current figure or, without one, on figure 1 (C74). `GuardProps5.v` covers the
sides of the edges of the library meshes (C69) and bilinear forms without their constants (C80).

### Span of the traces of an edge (C70)

* Spans are those of functions of the plane. Spans of restrictions to the edge follow from them.
* The functional that integrates over the edge stays arbitrary. It only decides the centre of the
  linear functions and signs.
* `roomy` is the condition that the leading coefficients survive the cutoff; `halves` gives the half
  widths of the box with its special case for straight edges along an axis.
* The reduction to a basis afterwards keeps or drops functions by a tolerance (C61); C70 is about the
  set before it.

### Printed polynomials (C71)

* The text of a coefficient is an argument `show`. Theorems assume `printable` only for the coefficients
  that occur, because no function to texts can be inverted on all reals.
* PrintSpec has the reader. It does not use the definitions that print.
* Python sorts the object while printing; poly_repr returns it with the text.

### Names of curves and refused methods (C72, C73)

* EdgeModel returns either an edge or an exception. FaultModel repeats its methods with the edge that is
  left when an exception is raised. C73_outcomes and C73_sampling_outcomes prove that both agree.
* The arrays of an edge are one list of samples. If DX or DDX raised after X had succeeded, the arrays would
  have different lengths; `curve_all` proves that this cannot happen.
* The file test of set_curve_type is an argument; `faithful` says that it finds the ten files.
  ModuleNotFoundError is `NoModule`.
* Edge.evaluate_function of EdgeModel is exact when num_pts is the number of samples. C72_example reaches
  an edge where it is not; nothing is claimed about evaluate_function there.

### Figures (C74)

* DrawModel describes matplotlib by the open figures (the current one first) with what has been drawn on
  each, the default colour map and the output. Each plt command is one action on this state.
* Assumed of matplotlib: the commands do not fail, except that plt.figure refuses a size that is not finite
  (ValueError); plt.show leaves the figures open; plt.set_cmap changes the default and the last contours;
  plt.axis("equal") does not bring back a hidden axis.
* Left out: line formats, contour levels, margins and resolution, colour maps that do not exist, and
  whether the array that is drawn has the length of the triangulation.

### Polynomials in doubles (C75)

* FloatPolyModel instantiates the scalars of PolyModel by IEEE doubles (Flocq, rounding to nearest even). The
  polynomial code is the same text; only evaluation is repeated with the power function as a parameter.
* Oracle: x**n for a float and an int n > 0 (C library or numpy). Theorems assume a bound on its error; repeated
  multiplication is proved to meet it.
* FloatErr has the errors of sums and products of doubles: `near k X B e x` says that x stands for X, of size at
  most B, after k roundings, with underflow e.
* Left out: flags and traps, fused operations, extended precision.

### Integrals in doubles (C76)

* FloatQuadModel has the two integrals over edges with doubles. The step, the products and the sums are rounded
  one by one, as numpy does.
* Oracle: the order in which numpy.sum adds, a binary tree with the values (and zeros as start values) as leaves.
  Theorems hold for every tree; the bound depends on its depth.
* FloatBdryModel has the integrals over contours and boundaries: consecutive blocks of values, each with its own
  rounded step, added in one sum. Weights are given as doubles; theorems say how far they are from the exact ones.
* FloatBdryProps2 says which arrays contours and products of traces (C78) refuse, and with which exception.
* Left out: num_pts = 1 in edge integrals, where Python raises ZeroDivisionError (Edge.parameterize makes at least
  3 points).

### Texts of objects (C77)

* SummaryModel has the texts as strings; SummarySpec has a reader of lines 'key: value'.
* Oracle: the text of a float.
* Left out: the terminal, and the line end added by print.
* PrintProps2: printing a solver reorders the terms of the right-hand side of its form and changes nothing else.

### Inner products in double precision (C78)

* FloatInnerModel has products of arrays, differences, sums of four blocks and the integrals of polynomials in doubles.
* The bounds are against the real-number models of LocalModel and CellModel, with [near] of FloatErr.
* Oracles: order of summation, power function.
* Left out: errors in the conjugates and anti-Laplacians, which come from linear solves and Fourier transforms; they enter as errors of the given arrays.

### Convergence of integrals (C79)

* ConvSpec defines line integrals, boundary integrals, cones and area integrals without the model's helpers for sampling.
* ConvProofs proves that left sums, right sums and trapezoid sums of a continuous function tend to its integral, also after Kress's change of variables.
* ConvProps has the theorems for edges and boundaries, ConvProps2 for polynomials, ConvProps3 the area as signed cones and as a double integral over rectangles, ConvProps4 cells bounded by rectangles and circles and the pegboard.
* The convergence theorems for cells assume that param_cell succeeds for the n in question. ConvProps5 proves that it does for every cell of every pegboard and every n >= 4, with a containment test that is exact for rectangles; ConvProps6 has examples.
* ConvProps7 applies this to the areas of local function spaces (`C79_area`) and to the L2 and H1 products of polynomials (`C79_products`); ConvProps8 has an example and the theorems on the centroid.
* Rates: C81.

### Setters (C80)

* SetterModel represents an object by its dictionary of attributes and a value by what the checks can see of it: integers, booleans, numpy integers, floats, strings, None, lists, tuples, functions with their signature, instances with their base classes.
* SetterSpec says which values each setter is for, which exception other values cause and which attribute it sets, without the code of the setters. binds is Python's rule for positional arguments.
* SetterProps has single calls, sequences of calls and keys; SetterProps2 the constructors, bilinear forms, stale degrees and is_Func_R2_R. C80_key_agrees ties the keys to the model of C47.
* Not modelled: numpy arrays as arguments, subclasses of the built-in types other than bool, warnings.

### Order of convergence (C81)

* RateSpec defines k continuous derivatives on an interval (smooth), the same with equal values of the derivatives at both ends (closes), fields that are smooth along smooth curves, and when a rule suits an edge (rule_fits).
* RateProofs proves the Euler-Maclaurin bound for functions that close up, with Bernoulli polynomials. RateProofs2 proves that smooth functions are closed under the operations needed and that Kress's substitution makes every smooth function close up to order p - 1. RateProofs3 carries the bound to edges and boundaries, RateProofs4 to integrands along smooth curves, RateProofs5 shows that polynomials along circles are trigonometric polynomials.
* RateProps has edges, boundaries, cells bounded by rectangles and circles, and pegboards; RateProps2 exact integrals over cells bounded by circles, scripts on pegboards and the examples.
* Nothing new is modelled: the definitions are those of C19, C20, C33, C39 and C54.

### The script ends (C82)

* BoardProofs reduces the construction of a local function space to a parameterized cell with distinct samples (spread) and shows that the functions for a cell can be built from these. BoardProofs2 proves that the samples of rectangles and of circles inside them are distinct. BoardProofs3 applies this to the cells of a pegboard.
* BoardSpec says which cells are bounded by rectangles and circles that do not meet; BoardProofs4 shows that these can be built.
* BoardProps has the theorem for meshes and its converse, BoardProps2 pegboards up to the admissible size, larger boards, and the examples, BoardProps3 all meshes of rectangles and discs with circular holes and the library's square with a circular hole.
* Nothing new is modelled: script is that of C64, pegboard that of C46.

### Failed samplings of cells (C83)

* CellFaultModel repeats the steps of CellModel, ContourModel and EdgeModel, each returning the state with the exception. C83_outcome shows that both models raise the same and agree otherwise.
* CellFaultSpec says what is compared: cells up to their interior points, and edges that sampling does not move (calm).
* CellFaultProofs proves that a failed sampling keeps the descriptions of the edges, that no step reads an interior point, and where a sampling stops. CellFaultProps has the theorems, CellFaultProps2 the point that a contour keeps and the edge whose curve raises.
* Not modelled: quad_dict is stored in the cell at the end only; the arrays of a failed search for interior points are stored as one list.

### Repeated assembly (C84)

* No new model: the theorems are about run_solver of AsmModel.
* AgainProofs has one lemma for each function of a run that works on a cell, from the tables of the cell to the rows of the matrix: it reads the heap at the edges of the cell only. AgainProofs2 follows two runs side by side.
* The relation reached (AgainProps) lists the states in which a run can stop: after some cells, or within the next one before or after its keys are registered, with any samples on the edges (C83 says which ones an exception leaves).
* Other flags: C85. Other forms: C86.

### Flags for values inside cells (C85)

* No new model: the theorems are about run_solver and script of AsmModel.
* FlagProofs has, for a function, a local space and the state of a run, what they would be with other flags (view, lview, wview), and shows that nothing else in a run reads the interior points of a cell.
* FlagProps states the result without these helpers: equal_systems, equal_inside.
* Not covered: time and memory.

### Other forms (C86)

* No new model: the theorems are about run_solver of AsmModel.
* ConstProofs writes the imposition of the boundary condition as one pass over the entries with the list of boundary numbers, and shows that a run with other constants is the run with the entries computed anew.
* C86_second composes this with C84: the second solver runs on the sampled edges and the used space. ConstProps2 has its case of a board.
* boundary_row (ConstProps) refers to registered keys only.
* Not covered: linearity of the load in the right-hand side. It fails where terms below the tolerance are dropped (C54).

### Transformations of sampled edges in doubles (C87)

* FloatEdgeModel has one record of eight doubles per sample and the transformations of edge.py on lists of them.
* Oracles: one entry of the product of a 2 by 2 matrix and a vector, and the norm of A^T A - I. dot_ok (FloatEdgeProofs) lists what the product may be: two products and a sum in either order, or one fused multiply-add.
* The computed cosine and sine are arguments; C87_rotate assumes a bound on their errors.
* The bounds are for finite results. Overflow gives no claim.
* Left out: the diary (C26, C29 over real numbers), join_points.

### Log of wrong programs (seeded/LOG.jsonl)

* failed_at is the first lemma or theorem of each file at which the build stopped.
* theorems_failed is read off the text: theorems that mention failed_at, directly or through other lemmas, in files that depend on the edited one. It may name too many; failed_at is exact.
* Only the files of the named claims are built for a mutant. Where nothing failed, the line says which theorem was added, or why the edit changes nothing.

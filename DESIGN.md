# Formal model of lace/blmath in Rocq

## Approach

The library is numerical Python.  Each function of `/repo/blmath` that is
modelled is written once, as an executable Gallina function, over an abstract
record of number operations (`Num`, in `theories/Num.v`).  `Num` has operations
and no laws.  The same definition is then read at two instances:

* `xr`: real numbers plus one `NaN` value.  Division by zero and the square
  root of a negative number give `NaN`, every comparison with `NaN` is false.
  This is the exact-arithmetic reading.  Properties that say "in exact
  arithmetic" are theorems about this instance.
* `b64`: IEEE-754 binary64 with round-to-nearest-even, from Flocq.  Properties
  about rounding, overflow, NaN and exact float comparisons are theorems (or
  refutations) about this instance.

Python exceptions are values (`res A := Ok a | Err e`).  An n x 3 array is a
list of `V3` records, a 3 x 3 or 4 x 4 matrix is a record of rows.  Stateful
objects are state records with a step function, and history properties are
stated about `fold_left` of that step function over arbitrary operation lists.
External numerical kernels (SVD, eig, hull, CHOLMOD, ...) are function
arguments of the model, and a theorem that needs one says, as a hypothesis,
what it must satisfy.  Sine, cosine, pi and arc cosine of doubles are such
arguments too: theorems about them (C154 to C156, C172, C173) hold for every library that
meets the accuracy stated in `SpecTrigD.v`, and the correctly rounded library
is shown to meet it.

Files: `Num.v`, `B64.v`, `Vec.v` numeric and vector primitives (numpy);
`RVec.v` the independent specification vocabulary over real vectors;
`M*.v` models (no proofs); `P*.v` proofs; `Props*.v` the property theorems,
each closed by one lemma and followed by `Print Assumptions` and an `Example`
showing that its hypotheses can be met.

Python 3 semantics is modelled (division, `__round__`, exception attributes).

## Property by property

| id | property | modelled in | how it is proved |
|---|---|---|---|
| C01 | Unit conversion factors form a consistent system | MUnits.v | unit table as data in the table order of __init__; laws proved from positivity of every stored factor, by exhaustive case analysis on the table and field algebra over R |
| C02 | Conversion is refused exactly when it is meaningless | MUnits.v | decision table of factor; case analysis; holds at every number type since no arithmetic decides it |
| C03 | The units_class restriction is enforced for different names | MUnits.v | the exact decision of factor (C02), for names that differ |
| C04 | convert and convert_list are linear, order preserving and invertible | MUnits.v | xr reading; field algebra; induction on lists |
| C05 | Converting to a system default keeps the quantity and lands on that system's unit | MUnits.v | association lists for default_units; exhaustive over the table, field algebra |
| C06 | Double-precision round trip of a unit conversion is accurate | MUnits.v at b64 | Flocq relative error lemmas, with the finitely many factors evaluated by vm_compute |
| C07 | prettify rounds the true conversion to the nearest display step | MUnits.v + MRounding.v | from C08 and C04 |
| C08 | round_to returns the nearest multiple | MRounding.v | round-half-even as ZnearestE; Flocq generic Znearest lemmas |
| C09 | Value comparisons compare physical quantities | MValue.v | physical quantity = number * table factor; comparisons reduce to comparison of quantities |
| C10 | Value equality is symmetric for equal units and for distinct quantities | MValue.v at b64 | same units: case analysis; apart: the comparison theorem C127 |
| C11 | Value arithmetic preserves units and physical meaning | MValue.v | symbolic evaluation of each dunder |
| C12 | Incompatible quantities never combine silently | MValue.v | case analysis on unit classes |
| C13 | Values always carry a recognised unit | MValue.v | invariant over operation histories |
| C14 | JSON round trip | MJson.v | nested induction on JSON documents |
| C15 | Value.round, round(v, places) and prettified | MValue.v | the Python 2 reading of round; round_to as in C08; prettified by C07 |
| C16 | normalize / proj / reject decompose a vector | MVx.v | real vector algebra in RVec.v; map over rows |
| C17 | angle and signed_angle | MVx.v | Coq Reals acos |
| C18 | The acos argument is always in range | MVx.v at b64 | case analysis on Flocq comparison |
| C19 | Homogeneous coordinates round trip | MVx.v | induction on rows |
| C20 | reject_axis and the tolerance predicates | MVx.v | case analysis |
| C21 | Plane construction | MPlane.v | real vector algebra |
| C22 | Signed distance, sign and half-space selection | MPlane.v | real vector algebra, filters |
| C23 | project_point is the orthogonal projection | MPlane.v | real vector algebra |
| C24 | canonical_point is canonical | MPlane.v | real vector algebra |
| C25 | Line and segment intersection with a plane | MPlane.v | real vector algebra |
| C26 | fit_from_points is the least-squares plane | MPlane.v with an eig oracle | spectral bound: quadratic form in an orthonormal eigenbasis; mean minimises |
| C27 | mesh_intersecting_faces selects exactly the faces not strictly on one side | MPlane.v | case analysis on signs |
| C28 | Edge walk traverses every edge exactly once | MMesh.v (pop choices as an adversarial schedule) | invariant over the walk: trail + remaining edges; parity argument |
| C29 | mesh_xsections slices the mesh | MMesh.v | refinement to C28 (at most two faces at an edge bound the degrees by two) plus the triangle section lemma; parity for closedness |
| C30 | Polyline edges always match vertices and closedness | MPolyline.v | invariant over histories, by induction on the history |
| C31 | intersect_plane finds every crossing | MPolyline.v | per-edge algebra, induction over edges |
| C32 | cut_by_plane on an open polyline keeps exactly the front part | MPolyline.v | sign constancy along the chain on each side of the single crossing |
| C33 | cut_by_plane on a closed polyline keeps exactly the front arc | MPolyline.v | cyclic sign-change counting |
| C34 | partition_by_length bounds segment length and preserves the curve | MPolyline.v | induction over edges; ceil bound |
| C35 | reindexed and flip | MPolyline.v | list lemmas |
| C36 | The documented direction of reindexed's edge mapping | MPolyline.v | refuted by a witness |
| C37 | partition_segment and partition are equally spaced | MSegment.v | real algebra, induction |
| C38 | line_intersect solves the 2D problem | MSegment.v | real algebra (Cramer) |
| C39 | line_intersect3 returns the intersection of two intersecting 3D lines | MSegment.v | vector algebra over the reals |
| C40 | Barycentric coordinates of a projection | MBary.v | real algebra |
| C41 | apex and farthest return an extreme input point | MApex.v | induction over the argmax fold |
| C42 | Box geometry | MSolids.v | xr and b64 readings; Flocq monotonicity of rounding |
| C43 | surface_normal | MSolids.v | real algebra |
| C44 | Generated solids are closed and outward oriented | MSolids.v | computation on face lists; real algebra on vertices |
| C45 | A composite transform acts as its parts in order | MComposite.v | induction over histories, matrix algebra |
| C46 | reverse=True undoes the transform | MComposite.v | induction over histories |
| C47 | Ranges compose | MComposite.v | list slicing and matrix algebra |
| C48 | Applying a composite never trips the column-of-ones check | MComposite.v at b64 | bottom row invariant under IEEE dot products |
| C49 | CoordinateManager moves points between named frames | MCoord.v | history machine; refinement to slices of the transform list |
| C50 | rotation_from_up_and_look | MRotation.v | real vector algebra |
| C51 | rodrigues of a vector is the rotation about it | MRotation.v | trigonometric identities |
| C52 | as_rotation_matrix leaves a rotation matrix unchanged | MRotation.v | axis-angle recovery, SVD step as an oracle |
| C53 | euler returns a rotation | MRotation.v | induction over the angle list |
| C54 | find_rigid_transform is the best rigid fit | MRigid.v with an svd oracle | trace maximisation over SO(3) |
| C55 | find_rigid_rotation is the best rotation | MRigid.v with an svd oracle | trace maximisation over SO(3) including the reflection case |
| C56 | rotate_to_xz_plane maps the normal to +y | MRotation.v | real algebra |
| C57 | as_numeric_array validates shape | MNumerics.v | ndarray shapes as lists; case analysis |
| C58 | isnumeric family | MNumerics.v | value universe as an inductive type |
| C59 | zero_safe_divide never returns NaN or infinity | MNumerics.v at b64 | case analysis on IEEE results |
| C60 | scale_to_range | MNumerics.v | real algebra, induction |
| C61 | Gram-Schmidt | MNumerics.v | induction over vectors of arbitrary dimension |
| C62 | isomorphism | MLinalg.v with det/inverse oracles | matrices as entry functions; finite-sum algebra |
| C63 | Block-sparse masking and products equal the plain ones | MLinalg.v | finite sums over masks of any length |
| C64 | lchol returns a permutation | MLinalg.v with a CHOLMOD oracle | permutation matrices |
| C65 | Cross-product node: value and derivative | MNormals.v | bilinear expansion |
| C66 | NormalizedNx3 derivative | MNormals.v | derivative of row normalisation via a quadratic remainder bound |
| C67 | TriEdges derivative | MNormals.v | linearity |
| C68 | VertNormals refreshes when v or f changes | MNormals.v | dependency machine, induction over histories |
| C69 | convexify keeps only input points | MConvexify.v with a hull oracle; SpecHull.v | list indexing; convex combinations under affine maps |
| C70 | Console input | MConsole.v | induction over the input stream |
| C71 | inflection_points | MApex.v | finite differences |
| C72 | translation | MRotation.v | real algebra |
| C73 | Unit assignment is validated | MValue.v | refuted: the setter stores its argument unchecked |
| C74 | Scaled rotation fit | MRigid.v with an SVD oracle | equality case of the trace maximisation; refuted for one point |
| C75 | Face and vertex normals | MNormals.v | value of the sparse vertex-face product by induction over faces |
| C76 | Derivative of face normals | MNormals.v | bilinear expansion of the composed Jacobians |
| C77 | Convex curves have no inflection points | MApex.v | counterexample: four points of a parabola |
| C78 | Slicing tolerates vertices on the plane | MMesh.v | refuted by two one-triangle meshes |
| C79 | The neighborhood only selects | MMesh.v | refuted by two separate triangles, for every iteration order |
| C80 | Jacobian of rodrigues at a vector | MJacobian.v; derivatives in SpecJacobian.v as limits along curves | differentiate the axis-angle form entry by entry; continuity keeps the curve on one branch |
| C81 | Jacobian of rodrigues at a matrix | MJacobian.v with an SVD oracle | differentiate the logarithm entry by entry; uniqueness of derivatives for the inverse |
| C82 | Indexing a Value | MProtocol.v: the indexing method and the sequence-iteration protocol | evaluate; iteration always meets KeyError |
| C83 | Truth of a Value | MProtocol.v: truth under Python 2 and 3 | evaluate |
| C84 | Values can be keys | MProtocol.v: which special methods the class defines | evaluate |
| C85 | int of a Value | MProtocol.v | bounds of Zceil |
| C86 | Unit listings | MProtocol.v over the unit table of MUnits.v | the table has no repeated key; lookup equals membership |
| C87 | conjGradSolve with one unknown | MCg.v: conjGradSolve with arrays of one or two dimensions | evaluate the first-guess test; run the one remaining case |
| C88 | block_sparse_cg_solve: preconditioner and solution | MCg.v with inv, factorized and cg oracles | split sums over the masks; a positive semidefinite form vanishes only on its null space |
| C89 | bsxfun stretches axes of length one | MMatlab.v: shapes and entry functions | case analysis of the branches; broadcasting lemmas |
| C90 | row and col | MMatlab.v: row-major entries | evaluate |
| C91 | sparse accumulates | MMatlab.v: scipy coordinate construction | induction over the index lists |
| C92 | np_reshape_safe never copies silently | MMemory.v: objects, buffers and views; the no-copy test is an arbitrary oracle | reads and writes through equal cells of one buffer; apart in another buffer |
| C93 | np_make_readonly of a sequence of arrays | MMemory.v | induction over the items |
| C94 | Copies of a Polyline are independent and its edges read-only | MMemory.v: polyline state with array objects | the stored object is the given one; a fresh buffer is referred to by nothing else |
| C95 | setter_property attributes | MDescriptor.v: the descriptor and attribute access | evaluate for every setter that stores under its name |
| C96 | to_dict of a Polyline | MExport.v over MPolyline.v and MJson.v | nearest-integer bounds; evaluate the encoder |
| C97 | Slicing a mesh of doubles never raises off the plane | MMesh.v and MPlane.v at binary64 | a tetrahedron evaluated in the kernel; for any numbers, exactly when a missing crossing raises |
| C98 | Slicing a mesh of doubles clear of the plane | MMesh.v and MPlane.v at binary64 | error bounds for the dot products and the quotient; interpolation stays between its ends; overflow counts as beyond both ends |
| C99 | A Polyline without points | MPolyline.v | evaluate every method at v=None |
| C100 | reindexed by any integer | MPolyline.v | Python slice positions; rotations of the list of segments |
| C101 | Basis vectors | MVx.v | evaluate; equations of unit vectors |
| C102 | partition_by_length at the borders | MPolyline.v at exact numbers and at binary64 | signs of quotients; the loop when no segment is divided; a failing call assigns nothing |
| C103 | normalize and magnitude in double precision | MVx.v at binary64 | rounding error of squares, sums, square root and quotient, each bounded by half an ulp; counterexamples where squares overflow or underflow |
| C104 | Plane distances and sides in double precision | MPlane.v at binary64 | error of the stored normal (C103) plus error of the two dot products; a sign is right when the distance exceeds the sum |
| C105 | project_point in double precision | MPlane.v at binary64 | error of the distance, of the scaled normal and of the subtraction; counterexample for exactness |
| C106 | flipped in double precision | MPlane.v at binary64 | error of normalizing twice; counterexample within the margin |
| C107 | partition_by_length in double precision | MPolyline.v at binary64 | error of each length, of the quotient whose ceiling is the number of pieces, and of each point; counterexample for exactness |
| C108 | partition_segment in double precision | MSegment.v at binary64 | error of the parameter i/n, of the difference, product and sum; counterexample for the last point |
| C109 | scale_to_range in double precision | MNumerics.v at binary64 | differences of doubles have a relative error only; then errors of product, quotient and sum; counterexample for the range |
| C110 | apex and farthest in double precision | MSegment.v at binary64 | the first maximum of the computed values is a maximum of the exact ones up to twice the error; counterexample for exactness |
| C111 | proj and reject in double precision | MVx.v at binary64 | error of the unit vector (C103), of the dot product and of the scaled vector; counterexample for exactness |
| C112 | Geometric identities hold exactly for doubles | the models above at binary64 | a counterexample computed in the kernel for each identity; C103-C111 say what holds instead |
| C113 | Division by incompatible units raises ValueError | MValue.v | case analysis on unit classes |
| C114 | mask_sparse_matrix with both masks, and matvec | MLinalg.v | finite sums over masks of any length; counterexamples for the rest |
| C115 | A Value unpacks as the pair (value, units) | MProtocol.v: the sequence-iteration protocol | iteration always meets KeyError |
| C116 | bsxfun returns for all shapes that fit | MMatlab.v | evaluate the branches |
| C117 | np_make_readonly of an array | MMemory.v | the array object itself is never made read-only |
| C118 | A Polyline owns its vertices | MMemory.v: polyline state with array objects | the stored object is the given one or a view of it |
| C119 | to_dict can be written as JSON | MExport.v over MJson.v | evaluate the encoder |
| C120 | partition_by_length without points | MPolyline.v | evaluate at v=None |
| C121 | reindexed: one mapping entry per edge | MPolyline.v | length of the mapping for every integer |
| C122 | partition_by_length refuses lengths that are not positive | MPolyline.v at exact numbers and at binary64 | signs of quotients; the loop when no segment is divided |
| C123 | Scaled rotation fit of a single point | MRigid.v with an SVD oracle | uniqueness of the optimal rotation; the factor from both norms |
| C124 | intersect_plane in double precision | MPolyline.v, MPlane.v at binary64 | the computed list is the list of edges filtered by the signs (any number type); relative error of the weights, then of each coordinate, then the distance |
| C125 | cut_by_plane in double precision, away from the plane | MPolyline.v, MPlane.v at binary64 | signs are right by the margin; change-of-side counting gives the split of the vertex list; crossing points by C98 and C124; direction of the crossing edge by the error of the scalar projection |
| C126 | cut_by_plane in double precision, for vertices anywhere | MPolyline.v, MPlane.v at binary64 | a counterexample computed in the kernel for open and for closed polylines |
| C127 | Values of doubles | MValue.v, MUnits.v at binary64, SpecValueD.v | the table entries are within 2^-52 of the true sizes of the units; error of the factor, then of each operation |
| C128 | The units_class restriction is enforced for equal names | MUnits.v | witness: equal names skip the check |
| C129 | Value equality is symmetric in floating point | MValue.v at b64 | witness computed in the kernel |
| C130 | Value.round and Value.prettified under Python 3 | MValue.v | Value.round calls the built-in round with one argument, and __round__ requires places: TypeError for every Value |
| C131 | A failed assignment changes nothing | MPolyline.v | witness: an empty array for a closed polyline |
| C132 | line_intersect3 when the first point is the intersection | MSegment.v | evaluation for every such quadruple |
| C133 | isnumeric means real numbers only | MNumerics.v | witnesses; and every list mixing bools with numbers |
| C134 | VertNormals refreshes when normalized changes | MNormals.v | every value of normalized is ignored after a read; a mesh for which that is wrong |
| C135 | conjGradSolve solves the system | MCg.v | evaluate the first-guess test |
| C136 | mask_sparse_matrix with a mask that keeps nothing, and matvec of any vector | MLinalg.v | counterexamples, for every matrix in the case of matvec |
| C137 | Rounding to a step on doubles | MRounding.v at binary64, SpecRoundD.v | round of a double is the nearest integer; error of the two divisions; correctly rounded last division |
| C138 | prettify on doubles | MUnits.v at binary64, SpecRoundD.v | the conversion is within 8 * 2^-53 of the true quantity, then C137; the steps by computation over the unit table and the precisions |
| C139 | prettify at five decimals | MUnits.v at binary64 | counterexample, 3 cm at precision 5 |
| C140 | Composite transforms in double precision | MComposite.v at binary64, SpecTransD.v | error of a product of two affine matrices in the row-sum norm; induction over the parts, in both orders; then the product with each point |
| C141 | Lengths of a Polyline in double precision | MPolyline.v at binary64, SpecSumD.v | relative error of subtraction, norm and square root; induction over the tree of additions, with permutations |
| C142 | Normals of triangles in double precision | MSolids.v, MPlane.v at binary64 | error of a 2x2 minor of rounded edges; perturbation of a unit vector; the tolerance test bounded from both sides |
| C143 | canonical_point and equation in double precision | MPlane.v at binary64 | error of the dot product against the exact unit normal, then of the product with it |
| C144 | line_intersect3 finds the intersection for doubles (refuted) | MSegment.v at binary64 | refuted: one pair of lines, by computation in the kernel |
| C145 | What line_intersect3 returns for doubles | MSegment.v at binary64 | errors of the cross products, their lengths, the ratio and the coordinates; the sign of the largest component of the two unit vectors |
| C146 | Barycentric coordinates in double precision | MSegment.v at binary64 | errors of the normal, its square, the reciprocal and the two dot products, relative to the area |
| C147 | Boxes in double precision | MSolids.v at binary64 | halving by 0.5 and by 2 is the same operation; relative errors of products and sums of non-negative numbers |
| C148 | Intersection with a plane in double precision | MPlane.v at binary64 | forward error analysis of the two dot products, the quotient and the final combination; for segments also of the rounded direction, and the comparisons with the end points |
| C149 | Intersection of two lines in the plane in double precision | MSegment.v at binary64; MSegmentD.v with the quotients of the 2x2 solver as a parameter (division or multiplication by the reciprocal) | forward error analysis of the elimination with row exchange: the pivots stay away from zero, each unknown is bounded in terms of the residual |
| C150 | Parallel lines of doubles give NaN | MSegment.v at binary64 | refuted by a concrete pair of parallel lines |
| C151 | A segment of doubles that meets a plane has an intersection | MPlane.v at binary64 | refuted by concrete segments |
| C152 | The rotation from up and look is accurate in doubles | MRotation.v at binary64 | error of the normalised up vector, of the dot product, of the projection removed from look, of its normalisation and of the cross product; the exact rotation is unique, its rows are computed from up and look |
| C153 | Collinear doubles are refused by rotation_from_up_and_look | MRotation.v at binary64 | refuted: one pair of equal vectors, by computation in the kernel |
| C154 | rodrigues is accurate in doubles | MRotation.v at binary64, SpecTrigD.v | the sine and cosine of doubles are a parameter with a stated accuracy; error of the length, of the axis, of each entry; below the threshold the turn is within its length of the identity |
| C155 | euler is accurate in doubles | MRotation.v at binary64, SpecTrigD.v | error of one axis turn; induction over the list in the row-sum norm; degrees: error of the conversion times the Lipschitz constant of sine and cosine |
| C156 | angle and signed_angle are accurate in doubles | MVx.v at binary64, SpecTrigD.v | error of the cosine, clamping only reduces it, arccos of a number in [-1, 1]; cosines apart when angles are apart; sign of the triple product from its error bound |
| C157 | repr and edges of a Polyline, and the deprecated polyline_xsection | MPolyline.v | the decimal digits read back to the length; the history theorem of C30; the crossings of C31 |
| C158 | Ranges and the CoordinateManager in double precision | MCoord.v, MComposite.v at binary64, SpecTransD.v | the tags cut the list of parts; the parts that calls add do not depend on what is there; then C140 |
| C159 | Centring and translating points in double precision | MRotation.v at binary64 | error of a sum by induction, of the division by the count, of each addition; the centroid of the errors is at most the largest; the factor cancels on the way back |
| C160 | almost_zero and almost_collinear on doubles | MVx.v at binary64 | |x - 0| <= atol is exact; equal real products round to the same double, so the difference is zero; else error of the minors and of the norm |
| C161 | Face and vertex normals in double precision | MNormals.v at binary64, SpecNormals.v | error of the edges and of the matrix form of the cross product; of the sum over the corners; of the direction; monotone rounding bounds each coordinate by the root of the sum of squares also when these underflow |
| C162 | Gram-Schmidt in double precision | MNumerics.v at binary64 | the rows (1, e, 0, 0), (1, 0, e, 0), (1, 0, 0, e) with e = 2^-27 evaluated; for two rows the error of the two dot products, of the quotient and of each coordinate |
| C163 | scale_to_range keeps the order of doubles | MNumerics.v at binary64 | a finite result forces all intermediate results to be finite, hence rounded exact ones; rounding is monotone |
| C164 | Attributes and histories of Values | MValue.v | conversion lemmas of C04 and C12; one step of the store after an arbitrary history |
| C165 | Derivatives of unit face normals and of vertex normals | MNormalsDr.v, SpecNormals.v | the change of a sum of face normals is a linear part and a part of second order; the remainder of the normalisation is quadratic; the smallest of finitely many deltas |
| C166 | Inflections of an evenly sampled curve are found | MApex.v at binary64 | refuted by a cubic; in general the spacing is constant, its differences +0, the slopes infinite, the second differences nan, and no comparison with nan holds |
| C167 | Rigid fits return rotations in double precision | MRigid.v at binary64, SpecRigidD.v | the product of the factors is near an orthogonal matrix, whose determinant is 1 or -1; the rounded determinant is within 1/5 of it |
| C168 | Rigid fits are nearly optimal in double precision | MRigid.v at binary64, SpecRigidD.v | errors of the centred points and of the sums of products; the factors are optimal for a nearby matrix, and changing the matrix by h changes the gain of one orthogonal matrix over another by at most 18 h |
| C169 | find_rigid_transform accepts rigid copies in double precision | MRigid.v at binary64, SpecRigidD.v | perturbation of the determinant; the refutation exhibits an accurate decomposition of the matrix of four points of a plane |
| C170 | find_rigid_rotation with scaling and for a single pair in double precision | MRigid.v at binary64, SpecRigidD.v | relative error of the sum of squares, of its root and of the quotient; for a pair, error of the cross product and of the sums of products, then the plane rotation that takes p along q |
| C171 | Scaled vertex normals in double precision | MNormals.v at binary64, SpecNormals.v | error of the count, of its inverse and of each weighted term; of the sum; of the length, its root and the quotients |
| C172 | rotate_to_xz_plane in double precision | MRotation.v at binary64, SpecXzD.v | dot and cross product with the y axis are exact; error of arccos, of the unit axis and of its multiple; the two branches separately (near the axis / away from it); then the mean, the offset and each image point |
| C173 | rodrigues of a matrix and as_rotation_matrix in double precision | MRotation.v at binary64, SpecRigidD.v, SpecTrigD.v | the product of the factors of a matrix next to an orthogonal one is next to it; errors of the antisymmetric part, of its length and of the clipped cosine; stability of arccos away from 0 and pi; both sides of the threshold; then stability of the turn under changes of its vector |
| C174 | as_rotation_matrix keeps rotation matrices in place | MRotation.v in exact arithmetic, SpecRotation.v | C52 for the positive part; the refutation evaluates the half-turn branch on a rational rotation matrix and compares the sign of one entry; the bound for all rotations is a case analysis of the signs the code chooses, each wrong sign belonging to a small product of coordinates |

## Trusted base

The kernel of Coq 8.16.1 (and its `vm_compute` for a few closed computations).  No axiom is declared in `theories/`, no kernel check is switched off, nothing is admitted, and no plugin, functor or module type is used.  Flocq supplies definitions and proved lemmas about binary64; it adds no axiom beyond those of the standard library.

`Print Assumptions`, run for every theorem of the manifest, lists one of these sets (all from the standard library):

* **A** (73 theorems): nothing ("Closed under the global context")
* **B** (3 theorems): `ClassicalDedekindReals.sig_forall_dec`, `FunctionalExtensionality.functional_extensionality_dep`
* **C** (181 theorems): `ClassicalDedekindReals.sig_forall_dec`, `ClassicalDedekindReals.sig_not_dec`, `FunctionalExtensionality.functional_extensionality_dep`
* **D** (213 theorems): `ClassicalDedekindReals.sig_forall_dec`, `ClassicalDedekindReals.sig_not_dec`, `Classical_Prop.classic`, `FunctionalExtensionality.functional_extensionality_dep`

| set | theorems |
|---|---|
| A | C05_default_units_exceptions, C102_unchanged, C116_column_row_refuted, C116_single_entry_refuted, C117_array_refuted, C118_shared_refuted, C118_transposed, C119_json_refuted, C120_partition_refuted, C133_mixed_refuted, C133_order_refuted, C14_dumps_refuses, C157_edges_attribute, C157_repr, C16_other_ranks, C20_reject_axis_squash, C28_add_edge_rejects, C28_every_edge_consumed_once, C28_star_is_no_trail, C28_trails, C30_chain_edges, C30_edges_match_after_any_history, C30_failed_operation_changes_nothing, C30_point_arrays, C30_setters, C35_no_vertices, C35_reindexed_open, C37_no_points, C43_rows_independent, C52_bad_shape, C57_as_numeric_array, C57_decided, C58_arrays, C58_bad_arrays, C58_empty, C58_object_arrays, C58_plain_arrays, C58_scalar_or_array, C58_scalars, C64_argument_unchanged, C65_lengths, C67_negative_numbers, C67_not_triples, C67_refused, C70_allow_empty, C70_input_float, C70_input_value, C80_node_other, C83_truth_refuted, C84_hash_refuted, C89_refuses, C89_returns, C89_stretches, C90_row_col, C91_exceptions, C91_returns, C91_returns_inferred, C91_shape, C92_just_warn, C92_raises, C92_view, C93_not_iterable, C93_rows, C93_sequence, C94_copy, C94_edges, C94_list, C94_refused, C95_assign_read, C95_delete, C95_plain_attributes, C99_no_rows, C99_without_points |
| B | C71_derivative_unique, C83_truth_python2, C88_unused_columns_are_zero |
| C | C01_factor_is_ratio_of_sizes, C01_factor_laws, C02_factor_decision_exact, C04_convert_list_elementwise, C04_convert_none, C04_convert_order_and_zero, C04_convert_preserves_quantity, C04_convert_round_trip, C04_convert_via_third_unit, C05_system_default, C05_system_default_unitless, C07_none, C07_prettify_nearest_step, C08_nan, C08_round_to_idempotent, C08_round_to_monotone, C08_round_to_nearest_multiple, C08_round_to_zero_raises, C08_rounded_list_elementwise, C09_comparisons_compare_quantities, C09_order_laws, C09_plain_numbers, C09_same_units, C100_any_index, C101_basis, C114_mask_both, C114_matvec, C115_unpack_refuted, C11_lists, C11_plain_floor_division, C11_plain_numbers, C11_ratios, C11_sum_and_difference, C11_unary, C11_unitless, C121_mapping_length_refuted, C131_failed_assignment_refuted, C132_first_point_on_second_line_refuted, C133_decimals_and_bools_refuted, C134_normalized_ignored, C134_refuted, C135_empty_guess, C135_exact_guess_refuted, C135_refuted, C135_single_1d_refused, C136_mask_both_refuted, C136_matvec_refuted, C157_polyline_xsection, C15_value_round, C164_attribute, C165_face_normals, C165_vertex_normals, C16_normalize, C16_normalize_stack, C16_normalize_zero, C16_proj_reject_decompose, C16_proj_reject_scale_invariant, C16_sproj_and_magnitude, C19_apply_homogeneous_affine, C20_almost_collinear, C20_almost_zero, C20_exactly_collinear, C21_constructor_rejects, C21_equation, C21_from_points, C21_from_points_and_vector, C21_normal_and_reference, C22_cover_and_overlap, C22_flipped, C22_is_euclidean_distance, C22_points_in_front, C22_ret_indices, C22_sign, C22_signed_distance, C23_project_point, C24_canonical_point, C25_line_segment_xsection, C25_line_xsection, C26_covariance, C26_fit_is_least_squares, C27_selected_faces, C29_joined, C29_neighborhood, C29_never_raises, C29_sections, C29_watertight, C30_constructor, C31_intersect_plane, C32_cut_open_rejects, C32_meetsb, C33_cut_closed, C33_cut_closed_rejects, C34_partition_by_length, C35_flip, C35_reindexed, C35_total_length, C36_documented_direction_refuted, C37_partition, C37_partition_keeps_vertices, C37_partition_segment, C37_partition_segment_old, C38_line_intersect, C39_intersecting_lines, C39_parallel_lines, C40_reproduce_projection, C40_rows_independent, C40_sum_to_one, C40_vertices, C41_apex, C41_farthest, C42_constructor, C42_exact, C43_normal, C43_swap_and_cycle, C44_cube, C44_horizontal_plane, C44_rectangular_prism, C44_triangular_prism, C45_parts_in_order, C45_range, C45_refused, C46_reverse_undoes, C47_empty_range, C47_ranges_compose, C49_backward, C49_forward, C49_via, C50_refused, C50_rotation_from_up_and_look, C51_turn_unique, C54_best_fit, C54_exact, C54_layout, C54_refuses, C55_layout, C60_constant, C60_scale_to_range, C61_index_error, C61_orthogonalize, C61_orthonormalize, C62_change_of_basis, C62_errors, C62_same_frame, C63_MMT, C63_MTM_matmat, C63_blocks, C63_default_masks, C63_split_columns, C63_split_rows, C64_lchol, C64_refused, C65_cross_product, C66_jacobian, C66_normalized_derivative, C66_value, C67_edges_derivative, C68_refresh, C68_v_and_f, C71_inflection_points, C71_too_few, C72_explicit, C72_translation, C75_bad_face, C75_face_normals, C75_vertex_normals, C75_vertex_normals_scaled, C76_face_normals_derivative, C77_refuted, C78_corner_lost, C78_refuted, C79_refuted, C82_getitem, C82_other_keys, C85_int, C87_one_unknown, C87_passes, C88_preconditioner, C88_solve, C88_symmetric_positive, C91_entries, C96_to_dict |
| D | C02_convert_raises_like_factor, C02_factor_decision_double, C03_units_class_enforced, C05_unitless_value, C05_unknown_system, C06_double_round_trip_error, C102_infinite, C102_nan, C102_zero, C103_magnitude, C103_normalize, C103_rows, C104_distance, C104_points_in_front, C104_sign, C105_project, C106_flipped, C106_sides_swap, C107_partition_by_length, C108_partition_segment, C109_scale_to_range, C10_apart, C10_same_units, C110_apex, C110_farthest, C111_proj_reject, C112_apex_refuted, C112_flipped_refuted, C112_last_point_refuted, C112_normalize_long_refuted, C112_normalize_short_refuted, C112_own_projection_refuted, C112_partition_by_length_refuted, C112_plane_long_normal_refuted, C112_project_refuted, C112_range_refuted, C113_division_reports_ValueError_refuted, C11_exceptions, C11_list_with_value, C11_unsupported_operations_raise, C122_minus_zero_refuted, C122_negative_refuted, C123_single_point_refuted, C124_intersect_plane, C125_cut_closed, C125_cut_open, C125_rejects, C126_closed_refuted, C126_open_refuted, C127_compare, C127_convert, C127_ratio, C127_sum_and_difference, C128_equal_names_refuted, C129_different_units_refuted, C12_incompatible_never_combine, C130_value_round_refuted, C137_decimal, C137_round_to, C138_prettify, C139_five_decimals_refuted, C13_constructor, C13_decoded_values_carry_recognised_units, C13_values_carry_recognised_units, C140_forward, C140_reverse, C140_round_trip, C141_segment_lengths, C141_total_length, C142_from_points, C142_from_points_and_vector, C142_surface_normal, C143_canonical, C143_canonical_point, C143_equation, C144_mirrored_refuted, C145_beyond_first_point, C145_up_to_mirror, C146_barycentric, C147_centre, C147_corners, C147_volume_and_area, C148_line, C148_segment, C149_along_an_axis, C149_line_intersect, C149_one_division, C14_json_round_trip, C14_sparse_fields, C14_value_fields, C150_parallel_refuted, C151_crossing_segment_refuted, C151_end_point_in_plane_refuted, C152_up_and_look, C153_collinear_refuted, C154_rodrigues, C155_degrees, C155_euler, C156_angle, C156_signed_angle, C158_manager_backward, C158_manager_forward, C158_range, C158_round_trip, C159_back, C159_given_factor, C159_translation, C15_prettified, C160_almost_zero, C160_collinear, C160_collinear_found, C161_face_normals, C161_vertex_normals, C162_orthonormal_refuted, C162_two_rows, C163_order, C164_history, C164_no_attribute, C166_evenly_sampled, C166_refuted, C167_rotation, C167_transform, C168_rotation, C168_transform, C169_accepts, C169_flat_refuted, C169_refuses, C16_stacks_row_by_row, C170_pair, C170_scaled, C171_vertex_normals_scaled, C172_above_one_refuted, C172_estimated_normal, C172_own_rodrigues, C172_rotate_to_xz_plane, C173_as_rotation_matrix, C173_as_rotation_matrix_small, C173_rodrigues_matrix, C173_round_trip, C173_small_turn, C174_always, C174_elsewhere, C174_near_half_turn_refuted, C17_angle, C17_signed_angle, C18_acos_argument_in_range, C19_pad_appends_ones, C19_pad_unpad_round_trip, C19_unpad_rejects, C20_reject_axis, C20_reject_axis_range, C20_reject_axis_stack, C25_line_segment_xsections_rows, C25_line_xsections_rows, C25_missing_rows_are_nan, C27_bad_index, C32_cut_open, C42_orderings_double, C45_convert, C45_index, C46_rotate_valid, C47_bounds, C48_last_row_exact, C48_never_raises, C49_mesh, C49_read_before_set, C49_reserved_names, C49_same_tag, C49_unknown_tag, C51_rodrigues_vector, C51_tiny, C52_always_rotation, C52_as_rotation_matrix, C52_minus_identity, C52_near_identity, C52_rodrigues_inverse, C52_rotation_is_turn, C52_vector_rotation, C53_degrees, C53_euler, C55_best_rotation, C55_one_pair, C56_refused, C56_rotate_to_xz_plane, C59_one_entry, C59_refusals, C59_zero_safe_divide, C69_convexify, C69_flatten, C69_flatten_total, C69_hull, C69_no_points, C69_rejects, C69_short, C73_units_assignment_refuted, C74_scaled_exact, C80_at_zero, C80_node, C80_vector_jacobian, C81_half_turn, C81_inverse, C81_matrix_jacobian, C81_near_identity, C85_not_finite, C86_classes, C86_listings, C97_lost_crossing, C97_raises, C97_refuted, C97_returns, C98_clear_of_the_plane, C98_edge, C98_exact_plane |

The axioms: `ClassicalDedekindReals.sig_forall_dec` (standard library, construction of the reals); `ClassicalDedekindReals.sig_not_dec` (standard library, construction of the reals); `FunctionalExtensionality.functional_extensionality_dep` (standard library, used by the reals); `Classical_Prop.classic` (standard library, excluded middle (used by lemmas on reals and by Flocq)).

Beyond the kernel, a reader has to trust that the models say what the code does.  What that rests on:

* The models were written by reading `/repo` as text; each definition cites the file and lines it follows and names its simplifications.  Nothing in `/repo` was run.
* Python 3 semantics, numpy at least 1.13 and before 1.24.
* numpy arrays are lists or records of numbers: dtype conversion, strides, aliasing and memory layout are modelled only where a definition says so.
* `np.sum`, `np.dot` and `np.mean` add from left to right.  At the instance `xr` the order does not matter; the theorems at `b64` that mention a sum say which order they use.
* External kernels are arguments of the model, constrained only by hypotheses written in the theorem: SVD, eigenvectors/PCA, `np.linalg.inv`, `det`, convex hull, KD-tree distances, CHOLMOD, conjugate gradients, `cv2.Rodrigues`, the terminal prompt, `float()` on strings.
* Trigonometric functions exist only at `xr`, where they are those of `Coq.Reals`.
* Iteration orders of Python dicts and sets in the mesh slicer are an arbitrary schedule, and the theorems hold for every schedule.

### Code that is modelled

| code | model |
|---|---|
| `units.py` | `MUnits.v` |
| `numerics/rounding.py` | `MRounding.v` |
| `value.py` | `MValue.v` |
| `util/json.py`, `Value.for_json`, `Value.from_json` | `MJson.v` |
| `numerics/vector_shortcuts.py` (`vx`) | `MVx.v` |
| `numerics/coercion.py`, `predicates.py`, `operations.py` | `MNumerics.v` |
| `numerics/linalg/` (`gram_schmidt.py`, `isomorphism.py`, `static_block_sparse_matrix.py`, `lchol.py` with `cholmod.c` behind an interface) | `MLinalg.v`, `MNumerics.v` |
| `geometry/primitives/plane.py` | `MPlane.v`, slicing in `MMesh.v` |
| `geometry/primitives/polyline.py` | `MPolyline.v` |
| `geometry/primitives/box.py`, `shapes.py`, `geometry/surface_normals.py` | `MSolids.v` |
| `geometry/segment.py`, `barycentric.py`, `apex.py` | `MSegment.v`, `MApex.v` |
| `geometry/convexify.py` | `MConvexify.v` |
| `geometry/transform/rodrigues.py`, `rotation.py`, `translation.py` | `MRotation.v`, Jacobians in `MJacobian.v` |
| `geometry/transform/composite.py`, `coordinate_manager.py`, `rigid_transform.py` | `MComposite.v`, `MCoord.v`, `MRigid.v` |
| `optimization/objectives/normals.py` | `MNormals.v`, `MNormalsDr.v` |
| `console.py` | `MConsole.v` |
| `numerics/matlab.py` | `MMatlab.v` |
| `numerics/numpy_ext.py`, array sharing of `Polyline` | `MMemory.v` |
| `util/decorators.py` | `MDescriptor.v` |
| `Polyline.to_dict`, `as_lines`, `Plane.normal`, `polyline_xsection` | `MExport.v` |
| special methods of `Value`, unit listings | `MProtocol.v` |
| `numerics/linalg/sparse_cg.py`, `StaticBlockSparseMatrix.conjGradSolve` | `MCg.v` |

### Code that is not modelled

* `geometry/transform/correspondence.py` only forwards to a closed-source module.
* The `main` functions of `plane.py` and `gram_schmidt.py` are demonstrations.
* `__repr__`, `__str__`, `__unicode__` of `Value`, `Plane` and `Polyline`: text for people.
* `Value.__cmp__`, `__div__`, `__rdiv__`, `__nonzero__`: never called by Python 3.
* The C code of CHOLMOD and the generated wrappers: `lchol` is modelled around a specification of the factorisation.
* `setup.py`, `Rakefile` and the tests.

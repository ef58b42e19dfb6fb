{"id": "C01", "title": "Unit conversion factors form a consistent system", "statement": "For recognised units a, b, c of one class, factor(a,b) is a positive number, factor(a,a)=1, factor(a,b)*factor(b,a)=1 and factor(a,b)*factor(b,c)=factor(a,c) (exact arithmetic).", "quantifier": "all triples of recognised unit names of a common class", "why_tests_cant": "tests sample a handful of pairs; consistency is a statement about every triple of table entries", "anchors": ["blmath/units.py:Units.__init__", "blmath/units.py:Units.factor"]}
{"id": "C02", "title": "Conversion is refused exactly when it is meaningless", "statement": "factor(a,b,units_class=c) returns a number exactly when (both a and b are None or empty), or a and b are the same string, or both are recognised units of one class and that class is c when c is given; with both units recognised every other case is a ValueError, and an unrecognised (or missing) unit on one side is a KeyError. convert raises exactly when factor does, even for value None.", "quantifier": "all arguments a, b, c: None, empty, recognised or unrecognised strings", "why_tests_cant": "tests try one apples-and-oranges pair; the guarantee is about every pair of inputs", "anchors": ["blmath/units.py:Units.factor", "blmath/units.py:Units.convert"]}
{"id": "C03", "title": "The units_class restriction is enforced for different names", "statement": "When units_class is given and from_units and to_units are different names, factor (and so convert) returns only if both units are of that class; in exact arithmetic and in doubles.", "quantifier": "all from/to/units_class combinations", "why_tests_cant": "the shortcut branches taken before the class check are easily missed by samples", "anchors": ["blmath/units.py:Units.factor"]}
{"id": "C04", "title": "convert and convert_list are linear, order preserving and invertible", "statement": "For units of one class, convert(x,a,b) is (x*factor(a,b), b); converting back returns x; converting through a third unit equals converting directly; order and zero are preserved; convert_list converts every element, in order and with the same length; convert(None,..) is (None, None).", "quantifier": "all finite numbers, lists of numbers and unit pairs of a common class (exact arithmetic)", "why_tests_cant": "unbounded domain of values and lists", "anchors": ["blmath/units.py:Units.convert", "blmath/units.py:Units.convert_list"]}
{"id": "C05", "title": "Converting to a system default keeps the quantity and lands on that system's unit", "statement": "For every recognised unit u and unit system s, convert_to_system_default(x,u,s) succeeds, returns the default unit of u's class in s, and the returned number denotes the same physical quantity; None/empty units are passed through unchanged; the exceptions dictionary of default_units overrides exactly its own keys.", "quantifier": "all numbers, recognised units, unit systems and exception dictionaries", "why_tests_cant": "every unit must have a default of its own class in both systems; a missing or cross-class table entry is found only by checking all of them", "anchors": ["blmath/units.py:Units.convert_to_system_default", "blmath/units.py:Units.convert_to_default", "blmath/units.py:Units.default_units"]}
{"id": "C06", "title": "Double-precision round trip of a unit conversion is accurate", "statement": "In IEEE double arithmetic, converting x from a to b and back returns a double whose relative error against x is at most 8*2^-53, for every pair of units in a class, as long as the intermediate results neither overflow nor become subnormal.", "quantifier": "all doubles x in the stated range, all same-class unit pairs", "why_tests_cant": "2^64 doubles times all unit pairs", "anchors": ["blmath/units.py:Units.factor", "blmath/units.py:Units.convert"]}
{"id": "C07", "title": "prettify rounds the true conversion to the nearest display step", "statement": "prettify(x,u) returns the metric and US default units of u's class and, for each, a number that is a multiple of the documented step (0.5 cm, 0.25 in, 0.5 kg, 1 lb, 1 yr, else 0.1, or 10^-precision) at distance at most half a step from the exact conversion.", "quantifier": "all finite numbers, recognised units and precisions (exact arithmetic)", "why_tests_cant": "unbounded", "anchors": ["blmath/units.py:Units.prettify", "blmath/numerics/rounding.py:round_to"]}
{"id": "C08", "title": "round_to returns the nearest multiple", "statement": "For nearest != 0, round_to(x,nearest) is an integer multiple of nearest, no other multiple is strictly closer to x, exact ties go to the even multiple, it is idempotent and, for nearest > 0, monotone; nearest = 0 raises ZeroDivisionError.", "quantifier": "all numbers x and increments (exact arithmetic)", "why_tests_cant": "unbounded; ties are measure zero so samples miss them", "anchors": ["blmath/numerics/rounding.py:round_to", "blmath/numerics/rounding.py:rounded_list"]}
{"id": "C09", "title": "Value comparisons compare physical quantities", "statement": "For Values with units of one class, each of <, <=, ==, !=, >, >= answers exactly as the comparison of the two physical quantities, so exactly one of <, ==, > holds, == is symmetric and transitive and < is transitive across mixed units; comparison with a plain number uses the Value's own units.", "quantifier": "all pairs and triples of Values with compatible units (exact arithmetic)", "why_tests_cant": "relational laws over unbounded domains", "anchors": ["blmath/value.py:Value.__eq__", "blmath/value.py:Value.__lt__", "blmath/value.py:Value._comparable"]}
{"id": "C10", "title": "Value equality is symmetric for equal units and for distinct quantities", "statement": "In double arithmetic x == y and y == x give the same answer for Values in the same units, whatever the numbers, and are both False for Values of one class in any units whose quantities differ by more than 4 * 2^-52 of the larger.", "quantifier": "all pairs of Values", "why_tests_cant": "a violating pair needs particular low-order bits", "anchors": ["blmath/value.py:Value.__eq__", "blmath/value.py:Value.convert"]}
{"id": "C11", "title": "Value arithmetic preserves units and physical meaning", "statement": "x + y and x - y are in the units of x and denote the sum/difference of the quantities; n + x, n - x and x * n, n * x, x / n keep the units; x / y and x // y of compatible Values are unitless ratios of quantities; x * y of two Values, n / x, n // x, x % n and x ** n always raise; arithmetic with a list maps over it.", "quantifier": "all Values, numbers and lists (exact arithmetic)", "why_tests_cant": "unbounded", "anchors": ["blmath/value.py:Value.__add__", "blmath/value.py:Value.__sub__", "blmath/value.py:Value.__rsub__", "blmath/value.py:Value.__mul__", "blmath/value.py:Value.__truediv__", "blmath/value.py:Value.__floordiv__"]}
{"id": "C12", "title": "Incompatible quantities never combine silently", "statement": "Comparing, adding, subtracting, multiplying or dividing two Values whose units are of different classes, or of which exactly one is unitless, raises; it never returns a number or a boolean.", "quantifier": "all pairs of Values with incompatible units and all binary operations", "why_tests_cant": "pairs x operations; the exception class differs by branch", "anchors": ["blmath/value.py:Value._comparable", "blmath/value.py:Value.convert", "blmath/value.py:Value.__truediv__"]}
{"id": "C13", "title": "Values always carry a recognised unit", "statement": "Every Value obtained from the constructor, conversions, arithmetic and JSON has units None or a recognised unit and a number that is not None, whatever sequence of operations produced it.", "quantifier": "all operation histories", "why_tests_cant": "histories", "anchors": ["blmath/value.py:Value.__init__", "blmath/value.py:Value.convert", "blmath/value.py:Value.__getattr__"]}
{"id": "C14", "title": "JSON round trip", "statement": "loads(dumps(t)) equals t for every JSON document t containing Values at any depth, provided no plain dictionary in it uses one of the marker keys.", "quantifier": "all documents of any depth and width", "why_tests_cant": "unbounded trees", "anchors": ["blmath/util/json.py:decode_json", "blmath/value.py:Value.for_json", "blmath/value.py:Value.from_json"]}
{"id": "C15", "title": "Value.round, round(v, places) and prettified", "statement": "Under Python 2, Value.round(nearest) returns the nearest multiple of nearest and prettified the pair of display numbers and units; under either Python round(v, places) returns a Value in the same units within half a unit of the last place kept.", "quantifier": "all Values and increments", "why_tests_cant": "protocol-level behaviour (__round__) not covered by any test", "anchors": ["blmath/value.py:Value.round", "blmath/value.py:Value.__round__", "blmath/numerics/rounding.py:round_to"]}
{"id": "C16", "title": "normalize / proj / reject decompose a vector", "statement": "normalize returns a vector of length 1 pointing the same way for every non-zero vector (row by row for stacked vectors); proj(v,onto) is parallel to onto, reject(v,from_v) is perpendicular to it, they add up to v, and neither depends on the length or sign of onto.", "quantifier": "all vectors and stacks of vectors of any height (exact arithmetic)", "why_tests_cant": "unbounded", "anchors": ["blmath/numerics/vector_shortcuts.py:normalize", "blmath/numerics/vector_shortcuts.py:proj", "blmath/numerics/vector_shortcuts.py:sproj", "blmath/numerics/vector_shortcuts.py:reject", "blmath/numerics/vector_shortcuts.py:magnitude"]}
{"id": "C17", "title": "angle and signed_angle", "statement": "angle returns a number in [0,180] whose cosine is the normalised dot product; it is symmetric and unaffected by positive rescaling; signed_angle has the same absolute value, lies in [-180,180], and swapping the vectors negates it except when the vectors are seen as collinear, where it is non-negative both ways.", "quantifier": "all non-zero vectors and look directions (exact arithmetic)", "why_tests_cant": "unbounded", "anchors": ["blmath/numerics/vector_shortcuts.py:angle", "blmath/numerics/vector_shortcuts.py:signed_angle"]}
{"id": "C18", "title": "The acos argument is always in range", "statement": "In floating point the argument handed to acos lies in [-1,1] for all inputs whose dot product is a number, so angle never fails with a domain error.", "quantifier": "all doubles", "why_tests_cant": "depends on low-order bits", "anchors": ["blmath/numerics/vector_shortcuts.py:angle"]}
{"id": "C19", "title": "Homogeneous coordinates round trip", "statement": "pad_with_ones appends a one to every row, unpad(pad_with_ones(m)) = m, unpad rejects any matrix whose last column is not all ones, and apply_homogeneous with an affine matrix maps every row p to A p + t.", "quantifier": "all matrices of any height", "why_tests_cant": "unbounded heights", "anchors": ["blmath/numerics/vector_shortcuts.py:pad_with_ones", "blmath/numerics/vector_shortcuts.py:unpad", "blmath/numerics/vector_shortcuts.py:apply_homogeneous"]}
{"id": "C20", "title": "reject_axis and the tolerance predicates", "statement": "reject_axis zeroes (or drops) exactly the chosen component and leaves the others; almost_zero holds exactly when every component is within atol of zero; almost_collinear holds exactly when the cross product has length at most atol.", "quantifier": "all vectors, axes and tolerances", "why_tests_cant": "unbounded", "anchors": ["blmath/numerics/vector_shortcuts.py:reject_axis", "blmath/numerics/vector_shortcuts.py:almost_zero", "blmath/numerics/vector_shortcuts.py:almost_collinear"]}
{"id": "C21", "title": "Plane construction", "statement": "Plane(p,n) raises ValueError exactly when every component of n is within 1e-8 of zero; otherwise the stored normal has length 1 and direction n, and the plane's equation [A,B,C,D] vanishes exactly on the points x with (x-p).n = 0. from_points contains its three points and its normal is on the counter-clockwise side; from_points_and_vector contains both points and is parallel to the vector.", "quantifier": "all points and normals (exact arithmetic)", "why_tests_cant": "unbounded", "anchors": ["blmath/geometry/primitives/plane.py:Plane.__init__", "blmath/geometry/primitives/plane.py:Plane.from_points", "blmath/geometry/primitives/plane.py:Plane.from_points_and_vector", "blmath/geometry/primitives/plane.py:Plane.equation"]}
{"id": "C22", "title": "Signed distance, sign and half-space selection", "statement": "signed_distance(x) is the signed Euclidean distance; sign is its sign; points_in_front returns exactly the points at signed distance >= 0, in order, with inverted=True exactly those <= 0, so the two selections cover all points and overlap exactly on the plane; ret_indices returns matching indices; flipped() negates signed distances and swaps the two selections.", "quantifier": "all planes and arrays of points of any length (exact arithmetic)", "why_tests_cant": "unbounded", "anchors": ["blmath/geometry/primitives/plane.py:Plane.signed_distance", "blmath/geometry/primitives/plane.py:Plane.sign", "blmath/geometry/primitives/plane.py:Plane.points_in_front", "blmath/geometry/primitives/plane.py:Plane.flipped", "blmath/geometry/primitives/plane.py:Plane.distance"]}
{"id": "C23", "title": "project_point is the orthogonal projection", "statement": "project_point(x) lies on the plane, x - project_point(x) is a multiple of the normal, it is at least as close to x as any other point of the plane, and projecting twice changes nothing.", "quantifier": "all planes and points (exact arithmetic)", "why_tests_cant": "unbounded", "anchors": ["blmath/geometry/primitives/plane.py:Plane.project_point"]}
{"id": "C24", "title": "canonical_point is canonical", "statement": "canonical_point lies on the plane, is the plane's closest point to the origin, and is the same for every choice of reference point on the same plane and for the flipped plane.", "quantifier": "all planes (exact arithmetic)", "why_tests_cant": "unbounded", "anchors": ["blmath/geometry/primitives/plane.py:Plane.canonical_point"]}
{"id": "C25", "title": "Line and segment intersection with a plane", "statement": "line_xsection returns None exactly for directions parallel to the plane and otherwise the unique common point; line_segment_xsection returns a point exactly when the endpoints are not strictly on one side and not both at equal distance, and then it is the unique point of the segment on the plane; the vectorised forms agree with the scalar forms row by row.", "quantifier": "all planes, points, rays, segments, arrays of any length (exact arithmetic)", "why_tests_cant": "unbounded", "anchors": ["blmath/geometry/primitives/plane.py:Plane._line_xsection", "blmath/geometry/primitives/plane.py:Plane._line_segment_xsection", "blmath/geometry/primitives/plane.py:Plane.line_xsections", "blmath/geometry/primitives/plane.py:Plane.line_segment_xsections"]}
{"id": "C26", "title": "fit_from_points is the least-squares plane", "statement": "The plane returned by fit_from_points minimises the sum of squared point-plane distances over all planes, given that eig returns an orthonormal eigenbasis of the covariance matrix.", "quantifier": "all point sets (exact arithmetic), all planes", "why_tests_cant": "optimality over a continuum", "anchors": ["blmath/geometry/primitives/plane.py:Plane.fit_from_points"]}
{"id": "C27", "title": "mesh_intersecting_faces selects exactly the faces not strictly on one side", "statement": "A face is selected exactly when its three vertices are not all strictly in front and not all strictly behind the plane; selection keeps face order.", "quantifier": "all planes and meshes (exact arithmetic)", "why_tests_cant": "unbounded", "anchors": ["blmath/geometry/primitives/plane.py:Plane.mesh_intersecting_faces"]}
{"id": "C28", "title": "Edge walk traverses every edge exactly once", "statement": "Whatever order sets and dictionaries iterate in, the slicer's path extraction terminates, consumes every edge of the graph exactly once, and when every connected component has at most two odd-degree vertices every returned path is a trail whose consecutive vertices are joined by distinct edges.", "quantifier": "all graphs, all iteration orders of set.pop and dict keys", "why_tests_cant": "iteration order is a schedule; tests see one order per interpreter", "anchors": ["blmath/geometry/primitives/plane.py:Plane.mesh_xsections.Graph.pop_euler_path", "blmath/geometry/primitives/plane.py:Plane.mesh_xsections.Graph.remove_edge"]}
{"id": "C29", "title": "mesh_xsections slices the mesh", "statement": "For a mesh with no vertex on the plane, three distinct corners per face, no repeated face and at most two faces at an edge, mesh_xsections terminates without an exception; the faces divide into those that miss the plane and one group per returned polyline, connected across cut edges and joined to no other group; the edges of a polyline are, one for one, the sections of the faces of its group. If every edge has two faces all polylines are closed. Without the manifold conditions it still never raises and every vertex returned lies on the plane and on an edge of a face. With a neighborhood, of several polylines one with least mean distance is returned, closed; mesh_xsection joins all vertices into one closed polyline, or returns the empty polyline.", "quantifier": "all meshes without on-plane vertices, all planes, all iteration orders of dicts and sets", "why_tests_cant": "unbounded; iteration order", "anchors": ["blmath/geometry/primitives/plane.py:Plane.mesh_xsections", "blmath/geometry/primitives/plane.py:Plane.mesh_xsection"]}
{"id": "C30", "title": "Polyline edges always match vertices and closedness", "statement": "After any sequence of setting v, setting closed, flip and partition_by_length, the edge list is the chain 0-1-...-(n-1), plus the edge from n-1 to 0 exactly when closed, and None exactly when v is None; an operation that raises leaves the polyline unchanged. The only state excepted is that of a closed polyline with an empty vertex array.", "quantifier": "all operation histories", "why_tests_cant": "histories", "anchors": ["blmath/geometry/primitives/polyline.py:Polyline._update_edges", "blmath/geometry/primitives/polyline.py:Polyline.v", "blmath/geometry/primitives/polyline.py:Polyline.closed", "blmath/util/decorators.py:setter_property"]}
{"id": "C31", "title": "intersect_plane finds every crossing", "statement": "For a polyline without an edge lying in the plane, intersect_plane returns exactly one point for each edge whose endpoints are not strictly on the same side, that point lies on the plane and on that edge, and the returned edge indices are those edges in order.", "quantifier": "all polylines of any length and planes (exact arithmetic)", "why_tests_cant": "unbounded", "anchors": ["blmath/geometry/primitives/polyline.py:Polyline.intersect_plane"]}
{"id": "C32", "title": "cut_by_plane on an open polyline keeps exactly the front part", "statement": "When an open polyline meets the plane in one edge, cut_by_plane returns an open polyline lying in front of or on the plane whose point set is exactly the part of the original in front of the plane (together with the crossing point); no intersection or more than one raises ValueError.", "quantifier": "all open polylines of any length and planes (exact arithmetic)", "why_tests_cant": "unbounded", "anchors": ["blmath/geometry/primitives/polyline.py:Polyline.cut_by_plane", "blmath/geometry/primitives/polyline.py:Polyline._cut_by_plane_open"]}
{"id": "C33", "title": "cut_by_plane on a closed polyline keeps exactly the front arc", "statement": "When a closed polyline with no vertex on the plane crosses the plane in exactly two edges, cut_by_plane returns an open polyline that starts and ends on the plane, whose interior vertices are exactly the front vertices in cyclic order, and lies in front; other crossing counts raise ValueError.", "quantifier": "all closed polylines of any length and planes (exact arithmetic)", "why_tests_cant": "unbounded", "anchors": ["blmath/geometry/primitives/polyline.py:Polyline.cut_by_plane", "blmath/geometry/primitives/polyline.py:Polyline._cut_by_plane_closed", "blmath/geometry/primitives/polyline.py:Polyline.reindexed"]}
{"id": "C34", "title": "partition_by_length bounds segment length and preserves the curve", "statement": "For max_length > 0, after partition_by_length no segment is longer than max_length, total length and closedness are unchanged, the returned indices locate the original vertices, in order, and the new vertices lie on the original segment they subdivide, equally spaced.", "quantifier": "all polylines of any length and all max_length > 0 (exact arithmetic)", "why_tests_cant": "unbounded", "anchors": ["blmath/geometry/primitives/polyline.py:Polyline.partition_by_length", "blmath/geometry/segment.py:partition_segment"]}
{"id": "C35", "title": "reindexed and flip", "statement": "reindexed(i) of a closed polyline with n vertices, 0<=i<n, is the cyclic rotation starting at old vertex i, keeps the total length and cyclic edge set, and its edge mapping sends position k of the result to the original edge that became edge k; open polylines raise ValueError; flip reverses vertex order, is an involution and keeps the total length.", "quantifier": "all polylines, all indices", "why_tests_cant": "unbounded", "anchors": ["blmath/geometry/primitives/polyline.py:Polyline.reindexed", "blmath/geometry/primitives/polyline.py:Polyline.flip", "blmath/geometry/primitives/polyline.py:Polyline.total_length"]}
{"id": "C36", "title": "The documented direction of reindexed's edge mapping", "statement": "The array returned by reindexed(ret_edge_mapping=True) maps old edge indices to new ones, as documented.", "quantifier": "all closed polylines and indices", "why_tests_cant": "a rotation and its inverse agree on small samples", "anchors": ["blmath/geometry/primitives/polyline.py:Polyline.reindexed"]}
{"id": "C37", "title": "partition_segment and partition are equally spaced", "statement": "partition_segment(p1,p2,n) returns exactly n points p1 + (k/(n-1))(p2-p1), or p1+(k/n)(p2-p1) with endpoint=False, in order; n<2 is ValueError and a non-int TypeError; partition(v,k) puts k equally spaced points on each segment followed by the last vertex (len = k*(len(v)-1)+1), keeping every original vertex; partition_segment_old returns the k-1 interior points.", "quantifier": "all points of 3-space, all n, all point lists (exact arithmetic)", "why_tests_cant": "unbounded", "anchors": ["blmath/geometry/segment.py:partition_segment", "blmath/geometry/segment.py:partition", "blmath/geometry/segment.py:partition_segment_old"]}
{"id": "C38", "title": "line_intersect solves the 2D problem", "statement": "line_intersect returns the unique common point of two non-parallel lines, and NaN coordinates when they are parallel or degenerate.", "quantifier": "all 2D point quadruples (exact arithmetic)", "why_tests_cant": "unbounded", "anchors": ["blmath/geometry/segment.py:line_intersect"]}
{"id": "C39", "title": "line_intersect3 returns the intersection of two intersecting 3D lines", "statement": "Whenever two distinct lines in space meet in one point, line_intersect3 returns that point, unless p0 lies on the second line and is neither p1 nor q1; parallel lines return None.", "quantifier": "all 3D point quadruples spanning two lines (exact arithmetic)", "why_tests_cant": "degenerate configurations are measure zero", "anchors": ["blmath/geometry/segment.py:line_intersect3"]}
{"id": "C40", "title": "Barycentric coordinates of a projection", "statement": "The three coordinates always sum to 1; for a non-degenerate triangle they reproduce the orthogonal projection of p to the triangle's plane, are (1,0,0),(0,1,0),(0,0,1) at the vertices; vectorised rows are independent.", "quantifier": "all points and triangles, any number of rows (exact arithmetic)", "why_tests_cant": "unbounded", "anchors": ["blmath/geometry/barycentric.py:barycentric_coordinates_of_projection"]}
{"id": "C41", "title": "apex and farthest return an extreme input point", "statement": "apex returns an input point whose coordinate along the axis is maximal, the first such; farthest returns a point of the input at maximal distance together with its index, the first such; empty input raises.", "quantifier": "all point arrays of any length", "why_tests_cant": "unbounded", "anchors": ["blmath/geometry/apex.py:apex", "blmath/geometry/apex.py:farthest", "blmath/geometry/primitives/polyline.py:Polyline.apex"]}
{"id": "C42", "title": "Box geometry", "statement": "Box rejects negative extents with ValueError and wrongly shaped input; otherwise min <= mid <= max per axis, ranges are [min,max], centre and floor points lie in the box, volume and surface area are the elementary formulas and non-negative.", "quantifier": "all origins and extents, exact arithmetic and (for the orderings) IEEE doubles", "why_tests_cant": "unbounded; rounding", "anchors": ["blmath/geometry/primitives/box.py:Box"]}
{"id": "C43", "title": "surface_normal", "statement": "The unnormalised normal is perpendicular to both edges with length twice the triangle area; the normalised one has length 1; swapping two vertices negates it; cyclic rotation of the vertices does not change it; rows are independent.", "quantifier": "all triangles, any number of rows (exact arithmetic)", "why_tests_cant": "unbounded", "anchors": ["blmath/geometry/surface_normals.py:surface_normal"]}
{"id": "C44", "title": "Generated solids are closed and outward oriented", "statement": "The faces of the prisms form a closed surface in which every directed edge occurs once and its reverse once; every face of a rectangular prism of positive size has the solid on its inner side; the triangular prism lies behind its base at the given height.", "quantifier": "all origins, sizes, triangles and heights (exact arithmetic)", "why_tests_cant": "geometry over a continuum", "anchors": ["blmath/geometry/shapes.py:create_rectangular_prism", "blmath/geometry/shapes.py:create_cube", "blmath/geometry/shapes.py:create_triangular_prism"]}
{"id": "C45", "title": "A composite transform acts as its parts in order", "statement": "For every sequence of scale, translate, rotate, reorient, convert_units and append_transform calls, applying the composite to points equals applying each part in the order added; each append returns the index of the new part.", "quantifier": "all transform histories and point arrays (exact arithmetic)", "why_tests_cant": "histories of any length; matrix order mistakes cancel on symmetric samples", "anchors": ["blmath/geometry/transform/composite.py:CompositeTransform.__call__", "blmath/geometry/transform/composite.py:CompositeTransform.matrix_for"]}
{"id": "C46", "title": "reverse=True undoes the transform", "statement": "For every history built from valid operations and every range of it, transforming forward and then with reverse=True over the same range returns the original points, and vice versa.", "quantifier": "all histories, ranges and points (exact arithmetic)", "why_tests_cant": "histories of any length", "anchors": ["blmath/geometry/transform/composite.py:CompositeTransform.__call__", "blmath/geometry/transform/composite.py:CompositeTransform.scale", "blmath/geometry/transform/composite.py:CompositeTransform.translate", "blmath/geometry/transform/composite.py:CompositeTransform.rotate"]}
{"id": "C47", "title": "Ranges compose", "statement": "For i<=j<=k, applying range (i,j) and then (j,k) equals applying (i,k); an empty range is the identity.", "quantifier": "all histories and indices (exact arithmetic)", "why_tests_cant": "unbounded", "anchors": ["blmath/geometry/transform/composite.py:CompositeTransform.matrix_for"]}
{"id": "C48", "title": "Applying a composite never trips the column-of-ones check", "statement": "In IEEE double arithmetic the combined matrix of scale, translate, rotate, reorient and convert_units steps keeps the exact last row 0,0,0,1, so applying it never raises as long as no entry overflows.", "quantifier": "all histories of any length, all doubles", "why_tests_cant": "exact float equality after arbitrarily many roundings", "anchors": ["blmath/numerics/vector_shortcuts.py:unpad", "blmath/geometry/transform/composite.py:CompositeTransform.__call__"]}
{"id": "C49", "title": "CoordinateManager moves points between named frames", "statement": "After any history of transform and tag calls, setting points at one tag and reading them at another returns the points mapped through exactly the transforms between the two tags (forward or reversed), so reading at the same tag returns the same points and reading via an intermediate tag agrees; unknown tags are rejected (a mesh without vertices is returned as it is); reading before setting raises ValueError. Tags must not be named like one of the own attributes of the manager.", "quantifier": "all histories, tags and point arrays (exact arithmetic)", "why_tests_cant": "histories", "anchors": ["blmath/geometry/transform/coordinate_manager.py:CoordinateManager"]}
{"id": "C50", "title": "rotation_from_up_and_look", "statement": "For non-zero, non-collinear up and look the result is a rotation (orthonormal rows, determinant 1) that sends up to a positive multiple of +y and look to the half-plane x=0, z>0; zero or collinear input raises ValueError.", "quantifier": "all vector pairs (exact arithmetic)", "why_tests_cant": "unbounded", "anchors": ["blmath/geometry/transform/rotation.py:rotation_from_up_and_look"]}
{"id": "C51", "title": "rodrigues of a vector is the rotation about it", "statement": "For every vector r the matrix is a rotation; it fixes r; its trace is 1+2cos|r| and it turns perpendicular vectors by |r| right-handedly, for |r| at least machine epsilon; below it is the identity.", "quantifier": "all vectors (exact arithmetic)", "why_tests_cant": "unbounded", "anchors": ["blmath/geometry/transform/rodrigues.py:rodrigues"]}
{"id": "C52", "title": "as_rotation_matrix leaves a rotation matrix unchanged", "statement": "as_rotation_matrix(R) = R for every rotation matrix R whose rotation angle is not within about 1e-5 of 0 or pi, and rodrigues(rodrigues(r)) = r for |r| < pi likewise.", "quantifier": "all rotation matrices (exact arithmetic)", "why_tests_cant": "unbounded; branch thresholds", "anchors": ["blmath/geometry/transform/rodrigues.py:as_rotation_matrix", "blmath/geometry/transform/rodrigues.py:rodrigues"]}
{"id": "C53", "title": "euler returns a rotation", "statement": "euler(angles, order) is a rotation for every list of angles and axis string, equals the product of the elementary rotations with the first axis applied first, and degrees and radians agree.", "quantifier": "all angle lists and order strings (exact arithmetic)", "why_tests_cant": "unbounded", "anchors": ["blmath/geometry/transform/rotation.py:euler"]}
{"id": "C54", "title": "find_rigid_transform is the best rigid fit", "statement": "When it returns, R is a rotation, and no other rotation and translation has a smaller sum of squared residuals; when b is exactly a rigid motion of a the residual is zero; given that svd meets its specification.", "quantifier": "all corresponding point sets of any size (exact arithmetic)", "why_tests_cant": "optimality over a continuum", "anchors": ["blmath/geometry/transform/rigid_transform.py:find_rigid_transform"]}
{"id": "C55", "title": "find_rigid_rotation is the best rotation", "statement": "R (without scaling) is a rotation and no rotation gives a smaller sum of squared residuals; given that svd meets its specification.", "quantifier": "all corresponding point sets of any size (exact arithmetic)", "why_tests_cant": "optimality over a continuum", "anchors": ["blmath/geometry/transform/rigid_transform.py:find_rigid_rotation"]}
{"id": "C56", "title": "rotate_to_xz_plane maps the normal to +y", "statement": "For a unit normal not (nearly) along y the returned matrix is a rotation taking it to +y, the rotated points are that rotation of the translated points, and translating by the negative of the returned offset after the inverse rotation restores the input.", "quantifier": "all point sets and unit normals (exact arithmetic)", "why_tests_cant": "unbounded", "anchors": ["blmath/geometry/transform/rotation.py:rotate_to_xz_plane", "blmath/geometry/transform/translation.py:translation"]}
{"id": "C57", "title": "as_numeric_array validates shape", "statement": "When it returns an array, its shape matches the requested pattern and its content is the input or its transpose; None is returned only when allowed; wrong rank or dimensions always raise ValueError.", "quantifier": "all shapes and patterns of any rank", "why_tests_cant": "unbounded", "anchors": ["blmath/numerics/coercion.py:as_numeric_array"]}
{"id": "C58", "title": "isnumeric family", "statement": "A scalar is numeric exactly when it is a real number (no bool, complex, NaN, infinity, string, None), Decimal zero and Decimal NaN apart. An array of values numpy stores natively is numeric exactly when it has a shape and all its entries are real numbers; arrays of ints of any size, Fractions and finite floats are; arrays of bools, or with a string or None, are not; for arrays that numpy stores as objects the answer is that of the arithmetic on their entries. isnumericscalar and isnumericarray are disjoint and cover isnumeric; is_empty_arraylike is true exactly for None and empty containers.", "quantifier": "all values in the modelled universe", "why_tests_cant": "unbounded nesting", "anchors": ["blmath/numerics/predicates.py"]}
{"id": "C59", "title": "zero_safe_divide never returns NaN or infinity", "statement": "Each output element is the IEEE quotient when that is finite and the default otherwise.", "quantifier": "all pairs of arrays of doubles", "why_tests_cant": "2^128 pairs including special values", "anchors": ["blmath/numerics/operations.py:zero_safe_divide"]}
{"id": "C60", "title": "scale_to_range", "statement": "For input that is not constant the output has minimum r_min and maximum r_max (r_min<=r_max), is an increasing affine image of the input; constant input produces no finite result.", "quantifier": "all arrays and ranges (exact arithmetic)", "why_tests_cant": "unbounded", "anchors": ["blmath/numerics/operations.py:scale_to_range"]}
{"id": "C61", "title": "Gram-Schmidt", "statement": "For linearly independent rows of any number and dimension, orthogonalize returns pairwise orthogonal rows, the first k of which span the same space as the first k inputs; orthonormalize returns unit rows at the requested indices.", "quantifier": "all families of vectors of any size (exact arithmetic)", "why_tests_cant": "induction over the number of vectors", "anchors": ["blmath/numerics/linalg/gram_schmidt.py"]}
{"id": "C62", "title": "isomorphism", "statement": "The result M satisfies frame1^T M = frame2^T for two bases; linearly dependent input raises LinearDependenceError and length mismatch DimensionalityError.", "quantifier": "all bases of any dimension over exact arithmetic", "why_tests_cant": "any dimension", "anchors": ["blmath/numerics/linalg/isomorphism.py:isomorphism"]}
{"id": "C63", "title": "Block-sparse masking and products equal the plain ones", "statement": "Splitting a matrix by row or column masks loses and duplicates nothing, the four blocks hold every entry once, the default masks are those of the density threshold, and MMT, MTM and matmat equal the products of the whole matrix, for every mask.", "quantifier": "all matrices and masks of any size", "why_tests_cant": "any size", "anchors": ["blmath/numerics/linalg/static_block_sparse_matrix.py"]}
{"id": "C64", "title": "lchol returns a permutation", "statement": "lchol leaves its argument unchanged and S is a permutation matrix, so S^T A S is a symmetric reordering of A and equals L L^T, given that CHOLMOD meets its specification.", "quantifier": "all symmetric positive definite matrices", "why_tests_cant": "native code behind an interface", "anchors": ["blmath/numerics/linalg/lchol.py:lchol", "blmath/numerics/linalg/cholmod.c:cholmod_lchol_c"]}
{"id": "C65", "title": "Cross-product node: value and derivative", "statement": "The value is the row-wise cross product and the reported Jacobians are the exact derivatives with respect to each argument.", "quantifier": "all stacks of vectors (exact arithmetic)", "why_tests_cant": "derivative statement over a continuum", "anchors": ["blmath/optimization/objectives/normals.py:CrossProduct"]}
{"id": "C66", "title": "NormalizedNx3 derivative", "statement": "The reported Jacobian of row normalisation is the derivative at every point with non-zero rows.", "quantifier": "all stacks of non-zero vectors (exact arithmetic)", "why_tests_cant": "limit statement", "anchors": ["blmath/optimization/objectives/normals.py:NormalizedNx3"]}
{"id": "C67", "title": "TriEdges derivative", "statement": "The reported sparse Jacobian maps any vertex displacement to the resulting edge displacement exactly.", "quantifier": "all meshes (exact arithmetic)", "why_tests_cant": "any size", "anchors": ["blmath/optimization/objectives/normals.py:TriEdges"]}
{"id": "C68", "title": "VertNormals refreshes when v or f changes", "statement": "After any sequence of changes and reads in which normalized takes another value after the first read only together with a change of f, each read gives what a freshly built node with the same inputs gives.", "quantifier": "all histories", "why_tests_cant": "cache invalidation over histories", "anchors": ["blmath/optimization/objectives/normals.py:VertNormals"]}
{"id": "C69", "title": "convexify keeps only input points", "statement": "convexify_planar_curve without flattening returns a polyline with the same closedness whose vertices are the input vertices at the hull indices; for points of a plane with the given normal, every input point is a convex combination of these, and no vertex of the others. With flattening, each vertex is the orthogonal projection of the corresponding input vertex to the plane through the centroid with the given normal. At most one point: returned as it is.", "quantifier": "all curves, all hull outputs (exact arithmetic)", "why_tests_cant": "external hull routine, continuum of curves", "anchors": ["blmath/geometry/convexify.py"]}
{"id": "C70", "title": "Console input", "statement": "input_float returns the first input that parses as a float, repeating on invalid input (and, unless allow_empty, on empty input); input_value wraps it with the given units or returns None only for allowed empty input.", "quantifier": "all finite input streams", "why_tests_cant": "unbounded input histories", "anchors": ["blmath/console.py"]}
{"id": "C71", "title": "inflection_points", "statement": "Returned points are input points in order: those at which the second derivative (by span coordinate increments, as the code takes them) and its successor have no common strict sign; fewer than two points raise ValueError.", "quantifier": "all curves whose neighbouring increments differ (exact arithmetic)", "why_tests_cant": "unbounded curves, continuum of positions", "anchors": ["blmath/geometry/apex.py:inflection_points"]}
{"id": "C72", "title": "translation", "statement": "translation(points) centres the points at the origin (zero mean), returns the offset used, and translating by the negative offset restores the input; an explicit factor is added to every point.", "quantifier": "all non-empty point arrays (exact arithmetic)", "why_tests_cant": "unbounded", "anchors": ["blmath/geometry/transform/translation.py:translation"]}
{"id": "C73", "title": "Unit assignment is validated", "statement": "Assigning to Value.units accepts only None or a recognised unit, like the constructor.", "quantifier": "all Values and all assigned strings", "why_tests_cant": "any string can be assigned", "anchors": ["blmath/value.py:Value.units"]}
{"id": "C74", "title": "Scaled rotation fit", "statement": "find_rigid_rotation with allow_scaling reproduces b exactly when b is a rotation of a times a positive factor, for any number of points other than one.", "quantifier": "all non-degenerate point sets of any size (exact arithmetic)", "why_tests_cant": "continuum of inputs; the single-point case takes a different path", "anchors": ["blmath/geometry/transform/rigid_transform.py:find_rigid_rotation"]}
{"id": "C75", "title": "Face and vertex normals", "statement": "TriNormals gives the unit normal of every face (zero for degenerate faces); VertNormals gives, at each vertex, the unit vector along the sum of the unnormalised normals of the faces meeting it; with normalized=False, a vector along their mean with the square root of its length. A face naming a missing vertex is refused.", "quantifier": "all meshes of any size (exact arithmetic)", "why_tests_cant": "unbounded meshes, continuum of positions", "anchors": ["blmath/optimization/objectives/normals.py:VertNormals", "blmath/optimization/objectives/normals.py:TriNormals"]}
{"id": "C76", "title": "Derivative of face normals", "statement": "Composing the Jacobians of the edge nodes and the cross product gives the derivative of the unnormalised face normals: the error is exactly the normals of the displacement, of second order.", "quantifier": "all meshes and displacements (exact arithmetic), all histories of Jacobian requests", "why_tests_cant": "derivative statement over a continuum; cached sparsity pattern", "anchors": ["blmath/optimization/objectives/normals.py:TriNormalsScaled", "blmath/optimization/objectives/normals.py:CrossProduct"]}
{"id": "C77", "title": "Convex curves have no inflection points", "statement": "inflection_points returns no point of a curve that is the graph of a strictly convex function.", "quantifier": "all strictly convex curves (exact arithmetic)", "why_tests_cant": "universal over a continuum of curves", "anchors": ["blmath/geometry/apex.py:inflection_points"]}
{"id": "C78", "title": "Slicing tolerates vertices on the plane", "statement": "mesh_xsections returns the sections of the faces, without raising, also when vertices of the mesh lie on the plane.", "quantifier": "all meshes and planes", "why_tests_cant": "unbounded; measure-zero inputs", "anchors": ["blmath/geometry/primitives/plane.py:Plane.mesh_xsections"]}
{"id": "C79", "title": "The neighborhood only selects", "statement": "With a neighborhood, mesh_xsections returns one of the polylines it returns without.", "quantifier": "all meshes, planes and neighborhoods", "why_tests_cant": "unbounded", "anchors": ["blmath/geometry/primitives/plane.py:Plane.mesh_xsections"]}
{"id": "C80", "title": "Jacobian of rodrigues at a vector", "statement": "The Jacobian returned with the matrix of a rotation vector is the derivative of that matrix: along every differentiable curve of vectors (away from zero) it turns the velocity of the vector into that of the matrix. Below machine epsilon it is the derivative of turning about each axis at angle zero. The chumpy node reports its transpose, one row for each matrix entry, when cv2 returns the same pair.", "quantifier": "all differentiable curves of rotation vectors (exact arithmetic)", "why_tests_cant": "derivative statement over a continuum of curves", "anchors": ["blmath/geometry/transform/rodrigues.py:rodrigues", "blmath/geometry/transform/rodrigues.py:Rodrigues"]}
{"id": "C81", "title": "Jacobian of rodrigues at a matrix", "statement": "The Jacobian returned with the vector of a rotation matrix is the derivative of that vector along every differentiable curve of rotations, wherever the sine of the angle exceeds 1e-5, and there it inverts the Jacobian of the other direction; nearer to the identity it is the derivative at the identity, and nearer to a half turn it is all zeros.", "quantifier": "all differentiable curves of rotation matrices and all rotations (exact arithmetic); svd meeting its specification", "why_tests_cant": "derivative statement over a continuum of curves", "anchors": ["blmath/geometry/transform/rodrigues.py:rodrigues"]}
{"id": "C82", "title": "Indexing a Value", "statement": "v[0] is the number, v[1] the units, and every other index or key raises KeyError.", "quantifier": "all Values and indices", "why_tests_cant": "for every Value; iteration protocol ends only on IndexError", "anchors": ["blmath/value.py:Value.__getitem__"]}
{"id": "C83", "title": "Truth of a Value", "statement": "bool(v) is False exactly when the number is zero.", "quantifier": "all Values", "why_tests_cant": "for every double", "anchors": ["blmath/value.py:Value.__nonzero__"]}
{"id": "C84", "title": "Values can be keys", "statement": "Equal Values have equal hashes, so that a Value can be a dictionary key or set element.", "quantifier": "all Values", "why_tests_cant": "for every pair", "anchors": ["blmath/value.py:Value.__eq__"]}
{"id": "C85", "title": "int of a Value", "statement": "int(v) is the number without its fraction: not larger in magnitude, less than one away and of the same sign; NaN raises ValueError, infinities OverflowError.", "quantifier": "all Values", "why_tests_cant": "for every number", "anchors": ["blmath/value.py:Value.__int__"]}
{"id": "C86", "title": "Unit listings", "statement": "all_units_classes lists each class once; lengths, weights, angles, times and time_rates list exactly the units of their class, without repetition.", "quantifier": "all strings, all set orders", "why_tests_cant": "any string; set iteration order", "anchors": ["blmath/units.py:all_units_classes", "blmath/units.py:lengths", "blmath/units.py:weights", "blmath/units.py:angles", "blmath/units.py:times", "blmath/units.py:time_rates"]}
{"id": "C87", "title": "conjGradSolve with one unknown", "statement": "conjGradSolve(A, b, x0) with one unknown, a nonzero and a (1, 1) guess that is neither zero nor already the solution returns the solution b/a, the right-hand side being a (1, 1) or a one-entry array; with maxiter, a positive tolerance ends it after the first pass, and otherwise every later pass turns the result into NaN.", "quantifier": "all one-by-one systems, guesses and tolerances (exact arithmetic)", "why_tests_cant": "any size", "anchors": ["blmath/numerics/linalg/static_block_sparse_matrix.py:StaticBlockSparseMatrix.conjGradSolve"]}
{"id": "C88", "title": "block_sparse_cg_solve: preconditioner and solution", "statement": "The operator given to conjugate gradients inverts the block-diagonal part of A (sparse columns against sparse columns, the others against the others), is zero where A has only zeros, and is symmetric and positive as the method needs; what is returned has the residual scipy promises.", "quantifier": "all positive semidefinite matrices of any size and all column counts (exact arithmetic); inv, factorized and cg meeting their specifications", "why_tests_cant": "any size, any pattern of columns", "anchors": ["blmath/numerics/linalg/sparse_cg.py:block_sparse_cg_solve"]}
{"id": "C89", "title": "bsxfun stretches axes of length one", "statement": "Whatever bsxfun(oper, a, b) returns has oper applied to the entries with the axes of length one stretched; it returns whenever the arrays agree along one axis and fit along the other, and for a row against a column; shapes that do not fit raise.", "quantifier": "all 2-d arrays of any shape, all elementwise operators", "why_tests_cant": "unbounded shapes", "anchors": ["blmath/numerics/matlab.py:bsxfun"]}
{"id": "C90", "title": "row and col", "statement": "row and col keep all entries in row-major order in one row or one column.", "quantifier": "arrays of any shape", "why_tests_cant": "any shape", "anchors": ["blmath/numerics/matlab.py:row", "blmath/numerics/matlab.py:col"]}
{"id": "C91", "title": "sparse accumulates", "statement": "sparse(i, j, data, m, n) has at each position the sum of all data given for it; the shape is the one given or the smallest that holds all indices; indices outside raise.", "quantifier": "all index and data arrays of any size (exact arithmetic)", "why_tests_cant": "any size, repeated positions", "anchors": ["blmath/numerics/matlab.py:sparse"]}
{"id": "C92", "title": "np_reshape_safe never copies silently", "statement": "The result is a view with the requested shape: every write through it or through the argument is seen in both; otherwise AttributeError is raised (or, with just_warn, a warning is issued and the result is an independent copy). The argument keeps its own shape.", "quantifier": "all arrays, shapes and writes; whatever layouts numpy can reshape without copying", "why_tests_cant": "aliasing: all later writes", "anchors": ["blmath/numerics/numpy_ext.py:np_reshape_safe"]}
{"id": "C93", "title": "np_make_readonly of a sequence of arrays", "statement": "After np_make_readonly(arrays), writes to each of the arrays raise ValueError and the others are as before; given one array of two or more axes it makes views of its rows read-only; numbers and arrays without axes raise TypeError.", "quantifier": "all arrays, sequences of arrays and writes", "why_tests_cant": "all later writes", "anchors": ["blmath/numerics/numpy_ext.py:np_make_readonly"]}
{"id": "C94", "title": "Copies of a Polyline are independent and its edges read-only", "statement": "A copy of a Polyline shares nothing with the original: no write through one is seen in the other; the edge array cannot be written; an array that is not of points, or has a NaN or infinity, is refused with nothing changed.", "quantifier": "all arrays, views and later writes", "why_tests_cant": "aliasing: all later writes", "anchors": ["blmath/geometry/primitives/polyline.py:Polyline.v", "blmath/geometry/primitives/polyline.py:Polyline.copy", "blmath/geometry/primitives/polyline.py:Polyline.e"]}
{"id": "C95", "title": "setter_property attributes", "statement": "Assigning goes through the setter and is then read back as stored, a refused value leaves the object as it was, other such attributes keep their values; deleting is assigning None; never assigned reads as None.", "quantifier": "all classes, objects and values", "why_tests_cant": "for all histories", "anchors": ["blmath/util/decorators.py:setter_property"]}
{"id": "C96", "title": "to_dict of a Polyline", "statement": "to_dict(decimals) has every vertex in order, rounded to that many decimals (off by at most half a unit), and the edges.", "quantifier": "all polylines and decimals (exact arithmetic)", "why_tests_cant": "unbounded", "anchors": ["blmath/geometry/primitives/polyline.py:Polyline.to_dict"]}
{"id": "C97", "title": "Slicing a mesh of doubles never raises off the plane", "statement": "If sign computes no zero for any vertex, mesh_xsections of a mesh of doubles returns polylines and does not raise.", "quantifier": "all planes and meshes of finite doubles and all iteration orders", "why_tests_cant": "rounding decides which edges are found; tests sample it", "anchors": ["blmath/geometry/primitives/plane.py:Plane.mesh_xsections", "blmath/geometry/primitives/plane.py:Plane.line_segment_xsection", "blmath/geometry/primitives/plane.py:Plane.sign"]}
{"id": "C98", "title": "Slicing a mesh of doubles clear of the plane", "statement": "If every vertex is at a computed distance of at least 2^-40 times the size of the coordinates, mesh_xsections of a mesh of doubles returns polylines; each of their vertices is within 2^-43 times that size of the plane and in the box of an edge whose ends are on different sides; every such edge has a vertex, and those of one face are on one polyline.", "quantifier": "all planes and meshes of doubles with such vertices, all faces, all iteration orders", "why_tests_cant": "needs an error analysis over all roundings", "anchors": ["blmath/geometry/primitives/plane.py:Plane.mesh_xsections", "blmath/geometry/primitives/plane.py:Plane.line_segment_xsections", "blmath/geometry/primitives/plane.py:Plane.mesh_intersecting_faces"]}
{"id": "C99", "title": "A Polyline without points", "statement": "A polyline made with v=None can be copied, measured (length 0), opened, closed and given points; every other method raises and leaves it without points as before (partition_by_length when it is open).", "quantifier": "all methods and their arguments", "why_tests_cant": "for all arguments", "anchors": ["blmath/geometry/primitives/polyline.py:Polyline"]}
{"id": "C100", "title": "reindexed by any integer", "statement": "For every integer index, reindexed returns the same closed chain started at the vertex Python slicing selects; for the indices of a vertex, counted from either end, the first entries of the edge mapping name, modulo the number of edges, the old edge of each new one.", "quantifier": "all closed polylines and all integers, negative and too large ones included", "why_tests_cant": "unbounded", "anchors": ["blmath/geometry/primitives/polyline.py:Polyline.reindexed"]}
{"id": "C101", "title": "Basis vectors", "statement": "vx.basis gives six unit vectors in opposite pairs; x, y and z are mutually orthogonal and x cross y is z.", "quantifier": "the six vectors (exact arithmetic)", "why_tests_cant": "part of every use of the basis; a single wrong sign mirrors all results", "anchors": ["blmath/numerics/vector_shortcuts.py:BasisVectorsFactory"]}
{"id": "C102", "title": "partition_by_length at the borders", "statement": "A zero or NaN max_length raises, an infinite one divides nothing, and every call that raises leaves the polyline as it was.", "quantifier": "all polylines and all max_length, as real numbers and as doubles including zeros, infinities and NaN", "why_tests_cant": "all lengths and polylines", "anchors": ["blmath/geometry/primitives/polyline.py:Polyline.partition_by_length"]}
{"id": "C103", "title": "normalize and magnitude in double precision", "statement": "For a finite vector of doubles with a length from 2^-400 to 2^400, normalize returns a vector whose entries differ from those of the exact unit vector by at most 12 * 2^-52 and whose length differs from 1 by at most 24 * 2^-52; magnitude is the exact length up to a relative error of 9 * 2^-52; stacks are treated row by row.", "quantifier": "all finite vectors of doubles of length 2^-400 to 2^400, stacks of any height", "why_tests_cant": "rounding, underflow and overflow of every vector; tests use a few vectors and a tolerance", "anchors": ["blmath/numerics/vector_shortcuts.py:normalize", "blmath/numerics/vector_shortcuts.py:magnitude"]}
{"id": "C104", "title": "Plane distances and sides in double precision", "statement": "signed_distance and distance differ from the exact distance to the plane through the given point perpendicular to the given vector by at most 130 * 2^-52 times the size of the coordinates, and sign and points_in_front are right for every point farther from the plane than that.", "quantifier": "all planes and points of doubles with coordinates of size at most M, 2^-800 <= M <= 2^800, and normals no longer than 2^400", "why_tests_cant": "rounding of every plane and point; a test can only look at points far from the plane", "anchors": ["blmath/geometry/primitives/plane.py:Plane.signed_distance", "blmath/geometry/primitives/plane.py:Plane.distance", "blmath/geometry/primitives/plane.py:Plane.sign", "blmath/geometry/primitives/plane.py:Plane.points_in_front"]}
{"id": "C105", "title": "project_point in double precision", "statement": "Each coordinate of project_point differs from that of the exact nearest point of the plane by at most 210 * 2^-52 times the size of the coordinates, and the returned point is within 420 * 2^-52 times that size of the exact plane.", "quantifier": "all planes and points of doubles as in C104", "why_tests_cant": "rounding of every plane and point", "anchors": ["blmath/geometry/primitives/plane.py:Plane.project_point"]}
{"id": "C106", "title": "flipped in double precision", "statement": "The normal of the flipped plane is the exact opposite one up to 50 * 2^-52, and a point farther from the plane than 358 * 2^-52 times the size of the coordinates is in front of one of the two planes and behind the other.", "quantifier": "all planes and points of doubles as in C104", "why_tests_cant": "rounding of every plane and point; the flipped normal is normalized a second time", "anchors": ["blmath/geometry/primitives/plane.py:Plane.flipped", "blmath/geometry/primitives/plane.py:Plane.sign"]}
{"id": "C107", "title": "partition_by_length in double precision", "statement": "After partition_by_length(max_length) no segment is longer than max_length plus 141 * 2^-52 times the size of the coordinates; each segment has the fewest pieces that allows and the new vertices divide it evenly, both up to rounding; the old vertices keep their values and stand at the returned indices.", "quantifier": "all polylines, open or closed, of any number of doubles of size at most M, 2^-300 <= M <= 2^300, and all max_length from 2^-40 M to 2^400", "why_tests_cant": "rounding of every length, quotient and point", "anchors": ["blmath/geometry/primitives/polyline.py:Polyline.partition_by_length"]}
{"id": "C108", "title": "partition_segment in double precision", "statement": "The points returned divide the segment evenly, each coordinate up to 19 * 2^-52 times the size of the coordinates; the first is p1 exactly.", "quantifier": "all segments of doubles of size 2^-300 to 2^300, with and without endpoint, 2 to 2^50 samples", "why_tests_cant": "rounding of every point", "anchors": ["blmath/geometry/segment.py:partition_segment"]}
{"id": "C109", "title": "scale_to_range in double precision", "statement": "Each result is within 24 * 2^-52 times the size of the range of the exact affine image of the element, and the smallest element becomes r_min exactly.", "quantifier": "all arrays of doubles of any length with a spread from 2^-500 to 2^500, all ranges of doubles of size 2^-400 to 2^400", "why_tests_cant": "rounding of every element", "anchors": ["blmath/numerics/operations.py:scale_to_range"]}
{"id": "C110", "title": "apex and farthest in double precision", "statement": "apex returns a given point, and no given point is further along the axis by more than 20 * 2^-52 times the sizes of points and axis; farthest returns a given point and its index, and no given point is further away by more than 120 * 2^-52 times the size of the points.", "quantifier": "all nonempty lists of points of doubles of ordinary size, all axes", "why_tests_cant": "rounding of every dot product decides which point is returned", "anchors": ["blmath/geometry/apex.py:apex", "blmath/geometry/apex.py:farthest"]}
{"id": "C111", "title": "proj and reject in double precision", "statement": "proj and reject are the exact component along the second vector and the rest, up to 86 and 90 * 2^-52 times the size of the vector for each coordinate, and the rejected part is orthogonal to the second vector up to 180 * 2^-52 times that size.", "quantifier": "all vectors of doubles of size 2^-800 to 2^800, all second vectors of length 2^-400 to 2^400", "why_tests_cant": "rounding of every vector", "anchors": ["blmath/numerics/vector_shortcuts.py:proj", "blmath/numerics/vector_shortcuts.py:reject"]}
{"id": "C112", "title": "Geometric identities hold exactly for doubles", "statement": "normalize returns a vector of length about 1 for every finite nonzero vector; every plane the constructor accepts has a unit normal; a projected point is on the plane and projecting it again changes nothing; the flipped plane has exactly the points behind it that were in front; partition_by_length leaves no longer segment and a second call changes nothing; partition_segment with endpoint ends at p2; scale_to_range stays in the range; apex returns a highest point; a vector is its own projection.", "quantifier": "all vectors, planes and points of doubles", "why_tests_cant": "each fails only for some rounding pattern or size", "anchors": ["blmath/numerics/vector_shortcuts.py:normalize", "blmath/numerics/vector_shortcuts.py:proj", "blmath/geometry/primitives/plane.py:Plane", "blmath/geometry/primitives/polyline.py:Polyline.partition_by_length", "blmath/geometry/segment.py:partition_segment", "blmath/numerics/operations.py:scale_to_range", "blmath/geometry/apex.py:apex"]}
{"id": "C113", "title": "Division by incompatible units raises ValueError", "statement": "Dividing two Values with incompatible units raises ValueError.", "quantifier": "all pairs of Values with incompatible units", "why_tests_cant": "the exception class differs by branch", "anchors": ["blmath/value.py:Value.__truediv__", "blmath/value.py:Value.__floordiv__"]}
{"id": "C114", "title": "mask_sparse_matrix with both masks, and matvec", "statement": "Masking rows and columns at once selects exactly the entries in both masks, when each mask keeps something; matvec of a column vector, or of several columns, is M v unless there are both dense rows and dense columns.", "quantifier": "all matrices, masks and vectors of any size", "why_tests_cant": "any size; the empty mask takes another branch", "anchors": ["blmath/numerics/linalg/static_block_sparse_matrix.py:mask_sparse_matrix", "blmath/numerics/linalg/static_block_sparse_matrix.py:StaticBlockSparseMatrix.matvec"]}
{"id": "C115", "title": "A Value unpacks as the pair (value, units)", "statement": "number, units = v, list(v) and x in v treat a Value as the pair of its number and units.", "quantifier": "all Values", "why_tests_cant": "iteration protocol ends only on IndexError", "anchors": ["blmath/value.py:Value.__getitem__"]}
{"id": "C116", "title": "bsxfun returns for all shapes that fit", "statement": "bsxfun(oper, a, b) returns for any two 2-d arrays whose lengths agree or are one along each axis.", "quantifier": "all 2-d arrays of any shape", "why_tests_cant": "unbounded shapes; each pair of shapes takes its own branch", "anchors": ["blmath/numerics/matlab.py:bsxfun"]}
{"id": "C117", "title": "np_make_readonly of an array", "statement": "After np_make_readonly(arr), writes to arr raise ValueError.", "quantifier": "all arrays", "why_tests_cant": "all later writes", "anchors": ["blmath/numerics/numpy_ext.py:np_make_readonly"]}
{"id": "C118", "title": "A Polyline owns its vertices", "statement": "Nothing done later to the array given for v changes the vertices of a Polyline.", "quantifier": "all arrays, shapes and later writes", "why_tests_cant": "aliasing: all later writes", "anchors": ["blmath/geometry/primitives/polyline.py:Polyline.v"]}
{"id": "C119", "title": "to_dict can be written as JSON", "statement": "The result of to_dict is accepted by the JSON encoder of the package.", "quantifier": "all polylines", "why_tests_cant": "for every polyline", "anchors": ["blmath/geometry/primitives/polyline.py:Polyline.to_dict", "blmath/util/json.py"]}
{"id": "C120", "title": "partition_by_length without points", "statement": "partition_by_length of a polyline without points raises and leaves it as it was.", "quantifier": "open and closed polylines without points", "why_tests_cant": "failing operation leaves stale state", "anchors": ["blmath/geometry/primitives/polyline.py:Polyline.partition_by_length"]}
{"id": "C121", "title": "reindexed: one mapping entry per edge", "statement": "The edge mapping returned by reindexed has one entry per edge, for every index.", "quantifier": "all closed polylines and all integers", "why_tests_cant": "unbounded", "anchors": ["blmath/geometry/primitives/polyline.py:Polyline.reindexed"]}
{"id": "C122", "title": "partition_by_length refuses lengths that are not positive", "statement": "partition_by_length(max_length) raises for every max_length that is negative or zero.", "quantifier": "all polylines and all max_length, as real numbers and as doubles", "why_tests_cant": "signed zeros and negative lengths", "anchors": ["blmath/geometry/primitives/polyline.py:Polyline.partition_by_length"]}
{"id": "C123", "title": "Scaled rotation fit of a single point", "statement": "find_rigid_rotation with allow_scaling reproduces b when a and b are single points.", "quantifier": "all pairs of independent points (exact arithmetic)", "why_tests_cant": "continuum of inputs; one point takes a different path", "anchors": ["blmath/geometry/transform/rigid_transform.py:find_rigid_rotation"]}
{"id": "C124", "title": "intersect_plane in double precision", "statement": "Polyline.intersect_plane reports, in order, every edge whose ends are farther than 130 * 2^-52 times the size of the coordinates from the plane on opposite sides, and none whose ends are that far on one side. The point it gives for an edge is within 16 * 2^-52 times that size (each coordinate) of a point of the edge, and within 162 * 2^-52 times it of the plane, unless sign is 0 at both ends, and then its coordinates are NaN.", "quantifier": "all open and closed polylines of doubles and all planes of ordinary size", "why_tests_cant": "rounding errors of every input", "anchors": ["blmath/geometry/primitives/polyline.py:Polyline.intersect_plane", "blmath/geometry/primitives/plane.py:Plane.signed_distance"]}
{"id": "C125", "title": "cut_by_plane in double precision, away from the plane", "statement": "When no vertex is closer to the plane than 2^-39 of the size of the coordinates, cut_by_plane gives exactly the vertices in front of the plane, in order, with one new point at the crossing of an open polyline (at its first or last place, as the polyline runs) or two at the crossings of a closed one. The new points are on the crossing edges and on the plane up to rounding. ValueError unless an open polyline crosses once and a closed one twice.", "quantifier": "all open and closed polylines of doubles and all planes of ordinary size, vertices clear of the plane", "why_tests_cant": "rounding errors of every input; any number of vertices", "anchors": ["blmath/geometry/primitives/polyline.py:Polyline.cut_by_plane", "blmath/geometry/primitives/polyline.py:Polyline._cut_by_plane_closed"]}
{"id": "C126", "title": "cut_by_plane in double precision, for vertices anywhere", "statement": "cut_by_plane returns no vertex that Plane.sign puts behind the plane, and the new end points are on the plane up to rounding.", "quantifier": "all polylines of doubles whose vertices are not on the plane", "why_tests_cant": "rounding errors of every input", "anchors": ["blmath/geometry/primitives/polyline.py:Polyline.cut_by_plane", "blmath/geometry/primitives/plane.py:Plane.line_segment_xsection"]}
{"id": "C127", "title": "Values of doubles", "statement": "For two Values of one kind whose numbers are zero or of size 2^-900 to 2^900, the quantities being taken with the true sizes of the units: convert keeps the quantity up to 4 * 2^-52 of itself; every comparison is right when the quantities differ by more than 4 * 2^-52 of the second; a sum and a difference are off by at most 6 * 2^-52 times the sizes of the operands; a ratio between 2^-1000 and 2^990 is off by at most 6 * 2^-52 of itself, and has no units.", "quantifier": "all pairs of Values of doubles of one kind, in any units", "why_tests_cant": "rounding errors of every input; the unit table itself is rounded", "anchors": ["blmath/value.py:Value.convert", "blmath/value.py:Value.__cmp__", "blmath/value.py:Value.__add__", "blmath/value.py:Value.__sub__", "blmath/value.py:Value.__div__"]}
{"id": "C128", "title": "The units_class restriction is enforced for equal names", "statement": "When units_class is given, factor and convert accept only units of that class, also when from_units and to_units are the same name.", "quantifier": "all from/to/units_class combinations", "why_tests_cant": "the shortcut branch before the class check is easily missed by samples", "anchors": ["blmath/units.py:Units.factor"]}
{"id": "C129", "title": "Value equality is symmetric in floating point", "statement": "x == y and y == x give the same answer for Values in different units of a class, in IEEE double arithmetic.", "quantifier": "all pairs of Values", "why_tests_cant": "a violating pair needs particular low-order bits", "anchors": ["blmath/value.py:Value.__eq__", "blmath/value.py:Value.convert"]}
{"id": "C130", "title": "Value.round and Value.prettified under Python 3", "statement": "Value.round(nearest) returns the quantity rounded to the nearest increment, and Value.prettified returns the display pair, under Python 3.", "quantifier": "all Values and increments", "why_tests_cant": "protocol-level behaviour (__round__) not covered by any test", "anchors": ["blmath/value.py:Value.round", "blmath/value.py:Value.__round__", "blmath/numerics/rounding.py:round_to"]}
{"id": "C131", "title": "A failed assignment changes nothing", "statement": "Assigning v leaves the polyline as it was when it raises, for every polyline and every array.", "quantifier": "all polylines and arrays", "why_tests_cant": "needs the one combination of closed and empty", "anchors": ["blmath/geometry/primitives/polyline.py:Polyline.v", "blmath/geometry/primitives/polyline.py:Polyline._update_edges"]}
{"id": "C132", "title": "line_intersect3 when the first point is the intersection", "statement": "line_intersect3(p0, q0, p1, q1) returns p0 when p0 lies on the second line.", "quantifier": "all 3D point quadruples spanning two lines that meet in p0", "why_tests_cant": "degenerate configurations are measure zero", "anchors": ["blmath/geometry/segment.py:line_intersect3"]}
{"id": "C133", "title": "isnumeric means real numbers only", "statement": "isnumeric is true exactly for real numbers and arrays of them, whatever the order of the entries.", "quantifier": "all values in the modelled universe", "why_tests_cant": "needs particular Decimals, or bools beside numbers", "anchors": ["blmath/numerics/predicates.py:isnumeric"]}
{"id": "C134", "title": "VertNormals refreshes when normalized changes", "statement": "After any sequence of changes to v, f and normalized, the value equals that of a freshly built node with the same inputs.", "quantifier": "all histories", "why_tests_cant": "cache invalidation over histories", "anchors": ["blmath/optimization/objectives/normals.py:VertNormals"]}
{"id": "C135", "title": "conjGradSolve solves the system", "statement": "conjGradSolve(A, b) returns x with A x = b within the tolerance, for symmetric positive definite A of any size, from any first guess or none.", "quantifier": "all systems, guesses and tolerances (exact arithmetic)", "why_tests_cant": "any size", "anchors": ["blmath/numerics/linalg/static_block_sparse_matrix.py:StaticBlockSparseMatrix.conjGradSolve"]}
{"id": "C136", "title": "mask_sparse_matrix with a mask that keeps nothing, and matvec of any vector", "statement": "Masking rows and columns at once selects exactly the entries in both masks; matvec(v) is M v for every vector.", "quantifier": "all matrices, masks and vectors of any size", "why_tests_cant": "any size; the empty mask takes another branch", "anchors": ["blmath/numerics/linalg/static_block_sparse_matrix.py:mask_sparse_matrix", "blmath/numerics/linalg/static_block_sparse_matrix.py:StaticBlockSparseMatrix.matvec"]}
{"id": "C137", "title": "Rounding to a step on doubles", "statement": "For doubles x up to 2^900 and a step n of size 2^-900 to 2^900 (quotient up to 2^1000), round_to(x, n) is within 2 * 2^-52 of k * n in proportion, where k * n is within |n|/2 + 2^-52 |x| of x; any whole number j that is clearly the nearest is k. When the computed reciprocal of the step is a whole number N (0.1, 0.05, 0.25), the result is the double nearest to k / N.", "quantifier": "all finite doubles and steps in those ranges", "why_tests_cant": "rounding errors of every input; the reciprocal is rounded too", "anchors": ["blmath/numerics/rounding.py:round_to"]}
{"id": "C138", "title": "prettify on doubles", "statement": "For a double x (zero or 2^-900 to 2^800) in any recognised unit and a precision that is None or -15 to 22, prettify returns two numbers, in the display units of the metric and of the United States system; each is within 4 * 2^-52 in proportion of a whole number of display steps that is within half a step of the true quantity plus 8 * 2^-52 of it. With the default precision, and with precisions 0-4, 6-8 and 10-14, the number is the double nearest to that decimal.", "quantifier": "all doubles in that range, all units, all those precisions", "why_tests_cant": "rounding errors of every input, over the whole unit table", "anchors": ["blmath/units.py:Units.prettify", "blmath/numerics/rounding.py:round_to"]}
{"id": "C139", "title": "prettify at five decimals", "statement": "A number that is already a multiple of 10^-precision is shown unchanged.", "quantifier": "all doubles that are multiples of 10^-p, all p from 0 to 22", "why_tests_cant": "rounding errors of every input", "anchors": ["blmath/units.py:Units.prettify", "blmath/numerics/rounding.py:round_to"]}
{"id": "C140", "title": "Composite transforms in double precision", "statement": "A CompositeTransform of n parts (scale, convert_units, translate, reorient, rotate, append_transform3/4; n up to 2^30) applied to points of doubles with coordinates up to M gives, for each point, the image under the exact maps of the parts in order, up to 30 n 2^-52 (l M + s) in each coordinate, where l M + s bounds the coordinates the parts can produce (l: product of the row-sum norms, s: accumulated translations). reverse=True gives the reverse maps, the last part first, with the same bound. For scalings, unit conversions and translations the way there and back returns every point up to 30 n 2^-52 (3 l' (l M + s) + s').", "quantifier": "all sequences of parts of ordinary size (2^-400 to 2^400), all points of doubles", "why_tests_cant": "any number of parts; rounding errors of every input", "anchors": ["blmath/geometry/transform/composite.py:CompositeTransform.__call__", "blmath/geometry/transform/composite.py:CompositeTransform.matrix_for", "blmath/geometry/transform/composite.py:CompositeTransform.scale", "blmath/geometry/transform/composite.py:CompositeTransform.translate"]}
{"id": "C141", "title": "Lengths of a Polyline in double precision", "statement": "For a Polyline of doubles whose segments have distinct ends at an ordinary distance (2^-390 to 2^390) or coinciding ends, every entry of segment_lengths is within 12 * 2^-52 of the exact distance of the end points, relative to that distance (so exactly 0 where they coincide). total_length of n segments is within (n + 13) * 2^-52 of the exact length of the chain, relative to it, in whatever order and grouping the sum is formed (n below 2^30).", "quantifier": "all polylines of doubles, open or closed; all orders of summation", "why_tests_cant": "any number of segments; rounding errors of every input and of every order of adding up", "anchors": ["blmath/geometry/primitives/polyline.py:Polyline.segment_lengths", "blmath/geometry/primitives/polyline.py:Polyline.total_length"]}
{"id": "C142", "title": "Normals of triangles in double precision", "statement": "For three points of doubles whose edges from the first point have coordinates up to E, surface_normal(normalize=False) is within 9 * 2^-52 E^2 of the exact cross product in each coordinate; if the exact cross product has length A >= 2^-30 E^2, surface_normal is within 64 * 2^-52 E^2 / A of the exact unit normal. Plane.from_points accepts three points with A >= 3e-8, keeps the first as reference point, and its normal has that same accuracy and is perpendicular to both edges up to 192 * 2^-52 E^3 / A. The same for from_points_and_vector with the vector as second edge.", "quantifier": "all triples of points of doubles, with edges of ordinary size (2^-150 to 2^150) that are not nearly parallel", "why_tests_cant": "rounding errors of every input, wherever the triangle lies", "anchors": ["blmath/geometry/surface_normals.py:surface_normal", "blmath/geometry/primitives/plane.py:Plane.from_points", "blmath/geometry/primitives/plane.py:Plane.from_points_and_vector"]}
{"id": "C143", "title": "canonical_point and equation in double precision", "statement": "For a Plane of doubles with reference point coordinates up to M, canonical_point is within 86 * 2^-52 M of the foot of the perpendicular from the origin in each coordinate, and within 172 * 2^-52 M of the plane. Two Planes that describe the same plane, by any reference points up to M and normals of either direction, have canonical points within 172 * 2^-52 M of each other. equation returns A, B, C, D with A x + B y + C z + D within 94 * 2^-52 M of the exact signed distance of every point (x, y, z) with coordinates up to M.", "quantifier": "all planes of doubles, all points", "why_tests_cant": "rounding errors of every input", "anchors": ["blmath/geometry/primitives/plane.py:Plane.canonical_point", "blmath/geometry/primitives/plane.py:Plane.equation"]}
{"id": "C144", "title": "line_intersect3 finds the intersection for doubles (refuted)", "statement": "Where two lines given by doubles meet in one point, line_intersect3 returns that point up to rounding. This is false: it decides on which side of p0 the intersection lies by comparing two computed unit vectors for exact equality, and for (0,-1,-1), (-1,-1,0) against (-1,1,0), (0,2,-1), which meet in (-3,-1,2), it returns a point with x > 2, the mirror image in p0.", "quantifier": "all pairs of lines with double coordinates", "why_tests_cant": "whether two computed unit vectors agree in every bit depends on the rounding of each input", "anchors": ["blmath/geometry/segment.py:line_intersect3"]}
{"id": "C145", "title": "What line_intersect3 returns for doubles", "statement": "For two lines of doubles with edges up to E that meet in x, neither nearly parallel nor with p0 nearly on the second line, line_intersect3 returns, in each coordinate, within 68 * 2^-52 (E^2/K)(1 + H/K) E + 2 * 2^-52 M of x or of the mirror image of x in p0; K, H are the lengths of the cross products of the direction of the second line with the direction of the first and with p0 - p1, M bounds p0. Where p0 lies between q0 and x it is x.", "quantifier": "all pairs of lines of doubles that meet", "why_tests_cant": "rounding errors of every input", "anchors": ["blmath/geometry/segment.py:line_intersect3"]}
{"id": "C146", "title": "Barycentric coordinates in double precision", "statement": "For doubles with edge vectors and p - q up to E, area = |u x v| at least 2^-20 E^2 and k = 2^-52 (E^2/area)^2: barycentric_coordinates_of_projection returns coordinates within 1050 k, 500 k, 500 k of those of the foot of the perpendicular, adding up to 1 within 50 k, and the vertices weighted with them lie within 1000 k E + 50 k |q| of the foot.", "quantifier": "all points and triangles of doubles", "why_tests_cant": "rounding errors of every input", "anchors": ["blmath/geometry/barycentric.py:barycentric_coordinates_of_projection"]}
{"id": "C147", "title": "Boxes in double precision", "statement": "For a Box of doubles center_point is (mid_x, mid_y, mid_z) bit for bit, and floor_point has the same x and z and the y of the origin. max_x, max_y, max_z and mid_x, mid_y, mid_z are within one unit of the last place of the exact values; volume within 3 * 2^-52 and surface_area within 5 * 2^-52 of the exact values, relatively, where each side is 0 or between 2^-300 and 2^300.", "quantifier": "all boxes of doubles", "why_tests_cant": "rounding errors of every input", "anchors": ["blmath/geometry/primitives/box.py:Box"]}
{"id": "C148", "title": "Intersection with a plane in double precision", "statement": "For a plane built from a reference point and a normal, line_xsection on doubles returns a point within 570 * 2^-52 * M / c^2, per coordinate, of the exact intersection of the line with the plane, where M bounds the coordinates of the reference point and of the point of the line, and c >= 2^-20 is the size of the component of the ray along the unit normal, relative to a bound on the coordinates of the ray. line_segment_xsection returns, if anything, a point within 600 * 2^-52 * M / c^2 of it (c >= 2^-19); it returns a point if the exact intersection is at least that far from both end points in every coordinate in which they differ, and None if the exact intersection is beyond both end points by more than that in some coordinate.", "quantifier": "all finite reference points, points, rays and normals of ordinary size", "why_tests_cant": "rounding errors of every input", "anchors": ["blmath/geometry/primitives/plane.py:line_xsection", "blmath/geometry/primitives/plane.py:line_segment_xsection"]}
{"id": "C149", "title": "Intersection of two lines in the plane in double precision", "statement": "For two lines in the plane that meet in x, line_intersect on doubles returns finite coordinates within 170 * 2^-52 * k^2 * (M + X) of x, where k = E^2 / |cross product of the two directions| <= 2^20, E bounds the coordinates of the directions, M those of the first points, X those of x; whichever of a division or a multiplication by the reciprocal the linear solver uses for its quotients. Two vertical or two horizontal lines give NaN.", "quantifier": "all pairs of lines of doubles of ordinary size", "why_tests_cant": "rounding errors of every input", "anchors": ["blmath/geometry/segment.py:line_intersect"]}
{"id": "C150", "title": "Parallel lines of doubles give NaN", "statement": "line_intersect on doubles returns NaN for every pair of parallel lines.", "quantifier": "all pairs of parallel lines of doubles", "why_tests_cant": "exact in rational arithmetic; false for some doubles only", "anchors": ["blmath/geometry/segment.py:line_intersect"]}
{"id": "C151", "title": "A segment of doubles that meets a plane has an intersection", "statement": "line_segment_xsection on doubles returns a point for every segment whose end points are on different sides of the plane, and for every segment with an end point in the plane.", "quantifier": "all segments of doubles that meet the plane", "why_tests_cant": "exact in rational arithmetic; false for some doubles only", "anchors": ["blmath/geometry/primitives/plane.py:line_segment_xsection"]}
{"id": "C152", "title": "The rotation from up and look is accurate in doubles", "statement": "rotation_from_up_and_look on doubles whose up vector is of ordinary size and whose look vector is not nearly collinear with it returns a matrix each entry of which is within 580 u / rho of that of the one rotation that takes up to the positive y axis and look into the half plane x = 0, z > 0; u is 2^-52 and rho >= 2^-20 is the z coordinate of the rotated look vector relative to the size of its coordinates.", "quantifier": "all finite up and look vectors of doubles of ordinary size with rho >= 2^-20", "why_tests_cant": "tests compare a few axis-aligned cases; the loss of accuracy grows without a visible step as the vectors approach each other", "anchors": ["blmath/geometry/transform/rotation.py:rotation_from_up_and_look"]}
{"id": "C153", "title": "Collinear doubles are refused by rotation_from_up_and_look", "statement": "rotation_from_up_and_look on doubles raises ValueError whenever up and look are collinear.", "quantifier": "all collinear pairs of vectors of doubles", "why_tests_cant": "exact in rational arithmetic; false for some doubles only", "anchors": ["blmath/geometry/transform/rotation.py:rotation_from_up_and_look"]}
{"id": "C154", "title": "rodrigues is accurate in doubles", "statement": "rodrigues of a finite vector of doubles of length theta <= 2^20 (so also of lengths below the eps threshold, and of zero) returns a matrix each entry of which is within (87 + 27 theta) u of that of the turn about the direction of the vector by its length, u = 2^-52, for every maths library whose sin and cos are within u.", "quantifier": "all finite vectors of doubles of length up to 2^20; all libraries with accurate sin and cos", "why_tests_cant": "rounding errors of every input; the threshold at which the identity is returned", "anchors": ["blmath/geometry/transform/rodrigues.py:rodrigues", "blmath/geometry/transform/rodrigues.py:as_rotation_matrix"]}
{"id": "C155", "title": "euler is accurate in doubles", "statement": "euler on n finite doubles in radians returns a matrix each entry of which is within 25 n u of that of the exact composition of the n axis turns in the given order; for degrees within 90 (1 + A) n u, where A bounds the angles in radians; u = 2^-52. This for every maths library whose sin, cos and pi are within u.", "quantifier": "all lists of finite doubles, all orders of axes, all libraries with accurate sin, cos and pi", "why_tests_cant": "lists of any length; rounding errors of every input", "anchors": ["blmath/geometry/transform/rotation.py:euler"]}
{"id": "C156", "title": "angle and signed_angle are accurate in doubles", "statement": "vx.angle on finite doubles of ordinary length never raises and never returns nan; its result is within 10^-4 degrees of the angle between the vectors, with a cosine within 100 u of the right one, u = 2^-52 (so also for collinear vectors, where rounding can put the cosine outside [-1, 1]). vx.signed_angle returns the same angle up to sign; the sign is that of (v x w) . look whenever this exceeds 30 u X Y Z in size, X, Y, Z bounding the coordinates. This for every maths library whose sin, cos and pi are within u and whose arccos is within 2 u.", "quantifier": "all pairs of finite vectors of doubles with lengths from 2^-400 to 2^400, all look vectors", "why_tests_cant": "nan from arccos appears only for the few inputs whose rounded cosine exceeds one", "anchors": ["blmath/numerics/vector_shortcuts.py:angle", "blmath/numerics/vector_shortcuts.py:signed_angle"]}
{"id": "C157", "title": "repr and edges of a Polyline, and the deprecated polyline_xsection", "statement": "repr of a Polyline never raises; it names the polyline open or closed and gives the number of its vertices in decimal, or says that there are none (for None as for an empty array). The attribute e read after any history is the edge list of the current vertices and closedness (except for the state of C131). Plane.polyline_xsection returns the crossings that C31 describes.", "quantifier": "all polylines and all histories of assignments; all planes and polylines with no edge in the plane", "why_tests_cant": "every number of vertices, every history", "anchors": ["blmath/geometry/primitives/polyline.py:Polyline.__repr__", "blmath/geometry/primitives/polyline.py:Polyline.e", "blmath/geometry/primitives/plane.py:Plane.polyline_xsection"]}
{"id": "C158", "title": "Ranges and the CoordinateManager in double precision", "statement": "Points of doubles with coordinates up to M, set at one tag and read at a later one, are the images under the exact maps of the n transform calls between the two tags, in order, up to 30 n 2^-52 (l M + s) in each coordinate, where l M + s bounds the coordinates those maps can produce; calls before, after, failed ones and other tags do not matter. Reading at the earlier tag applies the reverse maps with the same bound, and there and back returns every point up to 30 n 2^-52 (3 l' (l M + s) + s') for parts that undo each other. A composite called with from_range gives the same bound for the parts in the range, forward and in reverse.", "quantifier": "all histories of transforms, tags and assignments whose parts between the tags are of ordinary size (2^-400 to 2^400), all points of doubles", "why_tests_cant": "any history and any number of parts; rounding errors of every input", "anchors": ["blmath/geometry/transform/coordinate_manager.py:CoordinateManager", "blmath/geometry/transform/composite.py:CompositeTransform"]}
{"id": "C159", "title": "Centring and translating points in double precision", "statement": "translation of n points of doubles with coordinates up to M, without a factor, returns a factor within (n + 2) u M of minus the centroid, points within (n + 5) u M of the exactly centred ones, whose own centroid is within (n + 5) u M of the origin; translating the result by minus the returned factor restores every point up to 4 u M, whatever n is. With a factor the points move by it up to 2 u M; u = 2^-52.", "quantifier": "all non-empty lists of up to 2^30 points of doubles with M from 2^-400 to 2^400", "why_tests_cant": "the error of the mean grows with the number of points; that of the way back must not", "anchors": ["blmath/geometry/transform/translation.py:translation"]}
{"id": "C160", "title": "almost_zero and almost_collinear on doubles", "statement": "vx.almost_zero on doubles is true exactly when the three coordinates are finite and at most atol in size. vx.almost_collinear is true for every pair of collinear vectors of doubles whatever atol >= 0 is (0 included); for other pairs the answer is that of comparing |v x w| to atol, outside a band of relative width 20 u and absolute width 10 u X Y, X and Y bounding the coordinates, u = 2^-52.", "quantifier": "all vectors of doubles (collinear pairs: products up to 2^1000; others: sizes from 2^-190 to 2^190 and atol >= 2^-300)", "why_tests_cant": "rounding errors of every input; a rounded cross product of collinear vectors need not be zero in general", "anchors": ["blmath/numerics/vector_shortcuts.py:almost_zero", "blmath/numerics/vector_shortcuts.py:almost_collinear"]}
{"id": "C161", "title": "Face and vertex normals in double precision", "statement": "On a mesh of doubles whose face edges have coordinates up to E, TriNormalsScaled is within 9 u E^2 of the exact cross products; TriNormals is within 75 u E^2 / |N| of the unit vector along the exact normal N; VertNormals at a vertex where n corners meet is within 75 n^2 u E^2 / |s| of the unit vector along the sum s of the exact normals of those faces (u = 2^-52; the lengths |N|, |s| being at least 65536 u E^2 and 65536 n^2 u E^2). Whatever the lengths, every number returned is finite and at most 2, so degenerate faces and tiny normals give no NaN and no overflow; a vertex in no face gets the zero vector.", "quantifier": "all meshes of finite doubles with valid face indices, edges from 2^-150 to 2^150, up to 2^30 corners at a vertex", "why_tests_cant": "rounding errors of every input and any number of faces at a vertex; underflow of the squared length", "anchors": ["blmath/optimization/objectives/normals.py:TriNormals", "blmath/optimization/objectives/normals.py:TriNormalsScaled", "blmath/optimization/objectives/normals.py:VertNormals", "blmath/optimization/objectives/normals.py:NormalizedNx3"]}
{"id": "C162", "title": "Gram-Schmidt in double precision", "statement": "orthonormalize on linearly independent rows of doubles returns orthonormal rows up to rounding (false for three rows: the second and third returned row can be at 60 degrees to each other). For two rows of length n with coordinates up to X and Y, the first at least X long, orthogonalize keeps the first row unchanged, returns a second within 9 n^3 u Y of the exact one in each coordinate, and the exact dot product of the two is at most 9 n^3 u X Y, u = 2^-52.", "quantifier": "all pairs of rows of 1 to 2^20 doubles, X and Y from 2^-100 to 2^100; for the refutation, all lists of independent rows", "why_tests_cant": "loss of orthogonality shows for ill-conditioned rows only", "anchors": ["blmath/numerics/linalg/gram_schmidt.py:orthogonalize", "blmath/numerics/linalg/gram_schmidt.py:orthonormalize"]}
{"id": "C163", "title": "scale_to_range keeps the order of doubles", "statement": "scale_to_range on finite doubles of any size, if it returns no nan or infinity, keeps the order of the elements (reverses it for r_max < r_min), sends every smallest element exactly to r_min and returns nothing on the wrong side of r_min.", "quantifier": "all arrays of finite doubles of any length and size, all ranges for which the result is finite", "why_tests_cant": "an order inversion by rounding would show for some neighbouring doubles only", "anchors": ["blmath/numerics/operations.py:scale_to_range"]}
{"id": "C164", "title": "Attributes and histories of Values", "statement": "Reading the attribute of a Value that is named after a unit of its kind returns the same quantity in that unit; a unit of another kind (or any unit, for a Value without one) raises ValueError and a name that is no unit AttributeError. In any history of operations on Values, every operation leaves all existing objects as they are, except the assignment of a number to the attribute value, which changes that number of that Value and nothing else.", "quantifier": "all Values, all names, all histories of operations", "why_tests_cant": "all names and histories", "anchors": ["blmath/value.py:Value.__getattr__", "blmath/value.py:Value.value"]}
{"id": "C165", "title": "Derivatives of unit face normals and of vertex normals", "statement": "The derivative reported by TriNormals (every face of non-zero area) and by VertNormals with normalized=True (the normals of the faces meeting a vertex do not add up to zero; vertices of no face are allowed) is the derivative of the value: the reported change misses the true one by at most eps times the largest displacement, for all displacements small enough.", "quantifier": "all meshes, all displacements, all histories of Jacobian requests (exact arithmetic)", "why_tests_cant": "limit statement over a continuum, any mesh", "anchors": ["blmath/optimization/objectives/normals.py:VertNormals.compute_dr_wrt", "blmath/optimization/objectives/normals.py:TriNormals"]}
{"id": "C166", "title": "Inflections of an evenly sampled curve are found", "statement": "inflection_points of a curve sampled at even steps along the span reports the vertex before each change of sign of the curvature. (False: for even steps the spacings handed to numpy as coordinates coincide, and for every curve that rises or falls throughout nothing is reported.)", "quantifier": "all evenly sampled monotone curves of doubles", "why_tests_cant": "all curves and numbers of points; infinities and nan", "anchors": ["blmath/geometry/apex.py:inflection_points"]}
{"id": "C167", "title": "Rigid fits return rotations in double precision", "statement": "Whatever find_rigid_transform and find_rigid_rotation (without scaling) return on doubles is, up to 9 d + 20 * 2^-52 in each entry, an orthogonal matrix of determinant +1, never a reflection, for every svd routine whose factors are within d <= 1/1000 of orthogonal matrices.", "quantifier": "all arrays of doubles, of any size and with any values; all svd routines with nearly orthogonal factors", "why_tests_cant": "degenerate and ill-conditioned inputs, for which the sign of a rounded determinant decides", "anchors": ["blmath/geometry/transform/rigid_transform.py:find_rigid_transform", "blmath/geometry/transform/rigid_transform.py:find_rigid_rotation"]}
{"id": "C168", "title": "Rigid fits are nearly optimal in double precision", "statement": "For n points of doubles with coordinates up to X, find_rigid_rotation returns a matrix next to (as in C167) a rotation whose sum of squared errors exceeds that of every rotation by at most 40 n X^2 (tau + (n + 3) u); find_rigid_transform returns a matrix and an offset next to a rigid motion (offset up to X (27 d + (5 n + 90) u)) whose sum of squared errors exceeds that of every isometry by at most n X^2 (150 tau + 330 (n + 5) u). Here u = 2^-52 and the svd routine decomposes a matrix within tau times its largest entry of the given one.", "quantifier": "all pairs of lists of 1 to 2^30 points of doubles (for find_rigid_rotation not exactly 1), X from 2^-180 to 2^180; all svd routines of accuracy d and tau", "why_tests_cant": "optimality over a continuum; rounding errors of every input", "anchors": ["blmath/geometry/transform/rigid_transform.py:find_rigid_transform", "blmath/geometry/transform/rigid_transform.py:find_rigid_rotation"]}
{"id": "C169", "title": "find_rigid_transform accepts rigid copies in double precision", "statement": "find_rigid_transform of points and an exact rotated and shifted copy of them returns. (False for points of a plane: rounding makes the third singular value non-zero, and when the factors happen to give a reflection ValueError is raised.) It returns whenever the determinant of the sums of products of the centred coordinates of the two sets exceeds (n X^2)^3 (2800 tau + 6100 (n + 5) u), and raises whenever this determinant is below minus that.", "quantifier": "all pairs of lists of 1 to 2^30 points of doubles; all svd routines of accuracy d and tau", "why_tests_cant": "the outcome depends on rounding errors in the svd", "anchors": ["blmath/geometry/transform/rigid_transform.py:find_rigid_transform"]}
{"id": "C170", "title": "find_rigid_rotation with scaling and for a single pair in double precision", "statement": "With allow_scaling=True, find_rigid_rotation of n points of doubles returns a matrix next to k times a rotation, where k is the ratio of the roots of the sums of squared lengths (every entry up to k (10 d + (3 n + 60) u)), and the sum of squared errors of that rotation exceeds that of every rotation by at most 40 n X^2 (tau + (n + 3) u). For a single pair p, q it returns a matrix next to a rotation whose squared distance from the turned p to q exceeds that of every rotation by at most (X + 3 X^2)^2 (75 tau + 840 u). Here u = 2^-52, X bounds the coordinates, d and tau are the accuracies of the svd routine.", "quantifier": "all lists of points of doubles, each zero or of length 2^-180 to 2^180 and not all zero, up to 2^30 of them, not exactly one; all pairs with coordinates up to X, 2^-90 <= X <= 2^90; all svd routines of accuracy d and tau", "why_tests_cant": "optimality over a continuum; rounding errors of every input", "anchors": ["blmath/geometry/transform/rigid_transform.py:find_rigid_rotation"]}
{"id": "C171", "title": "Scaled vertex normals in double precision", "statement": "VertNormals with normalized=False on a mesh of doubles whose face edges have coordinates up to E returns, at a vertex where n corners meet and the exact normals have the mean m, a vector within (80 + 9 n) u E^2 / sqrt|m| of the one along m of length sqrt|m| (u = 2^-52, |m| at least 131072 n u E^2). At a vertex in no face it returns three NaN.", "quantifier": "all meshes of finite doubles with valid face indices, edges from 2^-150 to 2^150, up to 2^30 corners at a vertex", "why_tests_cant": "rounding errors of every input and any number of faces at a vertex", "anchors": ["blmath/optimization/objectives/normals.py:VertNormals"]}
{"id": "C172", "title": "rotate_to_xz_plane in double precision", "statement": "rotate_to_xz_plane on k points of doubles with coordinates up to X and a normal n of length 1 up to 25 u whose second coordinate does not exceed 1 in size returns a matrix within d of an exact rotation that takes n to within 3e-5 of the y axis, and to within 1500 u / sin t where n is at least 2e-5 from the y axis (t its angle to the axis), so that heights over the plane become y coordinates. The points are moved by minus their centroid unless the centroid is within 1e-5 of the origin, and each result is within X (6 d + (4 k + 46) u) of the turned moved point. A normal estimated from the points has such a length. (False without the bound on the second coordinate: for the normal (0, 1 + u, 0), given as a list, arccos is nan and cv2.Rodrigues is called with three NaNs.) Here u = 2^-52 and d is the accuracy of cv2.Rodrigues for angles up to 4.", "quantifier": "all non-empty lists of up to 2^30 points of doubles, X from 2^-180 to 2^180, all normals of length 1 up to rounding, all Rodrigues routines of accuracy d <= 1/100", "why_tests_cant": "near the y axis rounding decides between two ways to choose the axis of the turn", "anchors": ["blmath/geometry/transform/rotation.py:rotate_to_xz_plane", "blmath/geometry/transform/rotation.py:estimate_normal"]}
{"id": "C173", "title": "rodrigues of a matrix and as_rotation_matrix in double precision", "statement": "rodrigues of a 3x3 matrix of doubles within e of the exact turn about a unit vector k by an angle t in [0, pi] with sin t >= 2e-5 returns a vector within 20 D / sin t of t k in each coordinate, and as_rotation_matrix returns a matrix within 270 D / sin t of the exact turn; D = 9 d + 20 u + 7 (e + 2 tau), u = 2^-52, where d and tau are the accuracies of the svd routine. For t <= 1/1000, down to the identity, the vector is within 1.3e-5 of t k and the matrix within 1.7e-4 of the exact turn. rodrigues of the matrix that rodrigues returned for a vector of length t <= pi gives back the vector up to 20 D / sin t, with D = 9 d + 1420 u + 14 tau. (100 D, for as_rotation_matrix 2000 D, must not exceed sin^2 t; nothing is said next to half turns.)", "quantifier": "all matrices of doubles next to a rotation, all axes and angles up to the stated distance from a half turn; all svd routines of accuracy d and tau; all maths libraries of the stated accuracy", "why_tests_cant": "arccos and the division by the sine magnify the rounding errors near 0 and pi; a threshold decides between two formulas", "anchors": ["blmath/geometry/transform/rodrigues.py:rodrigues", "blmath/geometry/transform/rodrigues.py:as_rotation_matrix"]}
{"id": "C174", "title": "as_rotation_matrix keeps rotation matrices in place", "statement": "as_rotation_matrix of a rotation matrix is within 2e-5 of it, entry by entry. (True when the sine of the angle is at least 1e-5, below a quarter turn and for exact half turns. False next to half turns: for a turn about (1, 1, 1000) by pi minus 8e-6 the axis returned has a wrong sign, and an entry is off by more than 19e-4. It is never off by more than 1/50.)", "quantifier": "all rotation matrices (exact arithmetic), all correct svd routines", "why_tests_cant": "the signs of the axis are read off entries that the remaining sine can flip; this shows only in a band of width 1e-5 next to half turns, for axes next to a coordinate axis", "anchors": ["blmath/geometry/transform/rodrigues.py:as_rotation_matrix", "blmath/geometry/transform/rodrigues.py:rodrigues"]}

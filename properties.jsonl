{"id": "C01", "title": "RDF load round-trip", "statement": "Writing any list of nodes and any list of elements (0-based indices into the nodes, friction >= 0) as an RDF file, with arbitrary runs of blanks between fields, arbitrary comment lines and arbitrary node id fields, and loading it with a pose, yields a mesh whose i-th triangle has exactly the vertices pose*node[index], the friction and the id i of the i-th element line, and load returns true.", "quantifier": "every node list, every element list with in-range indices, every layout of blanks and comments, every pose", "why_tests_cant": "files are unbounded; a test samples a handful of files", "anchors": ["src/mesh.cc: mesh::load(path,pose)", "src/mesh.cc: split, tail, firstToken"]}
{"id": "C02", "title": "OBJ load round-trip", "statement": "Writing any vertex/face list as an OBJ file ('v x y z', 'f i j k' with 1-based indices of already declared vertices) interleaved with arbitrary lines starting with other keywords, and loading it with a friction >= 0 and a pose, yields exactly one triangle per 'f' line in file order with vertices pose*v[index-1], that friction and id equal to its position.", "quantifier": "every face/vertex list, every interleaving with other lines, every pose and friction", "why_tests_cant": "files are unbounded", "anchors": ["src/mesh.cc: mesh::load(path,friction,pose)"]}
{"id": "C03", "title": "A successful load means every data line was well formed", "statement": "If load of an RDF file returns true then every non-header, non-comment line inside [NODES] has exactly three fields after its first one and every one inside [ELEMENTS] has exactly four; the mesh size equals the number of element lines; nothing else contributes triangles.", "quantifier": "every file content", "why_tests_cant": "must hold for every byte string", "anchors": ["src/mesh.cc: mesh::load"]}
{"id": "C04", "title": "Loader rejects negative indices and negative or NaN friction", "statement": "No triangle of a successfully loaded mesh has a friction that is negative or NaN, and any element line with a negative index or a negative/NaN friction makes load throw.", "quantifier": "every file content, every number parser result", "why_tests_cant": "must hold for every byte string, NaN included", "anchors": ["src/mesh.cc: mesh::load", "src/triangleground.cc: triangleground"]}
{"id": "C05", "title": "Loader index safety", "statement": "load never accesses node storage out of bounds: an element index >= the number of nodes read so far is rejected.", "quantifier": "every file content", "why_tests_cant": "the out-of-bounds read is undefined behaviour, which a passing test cannot exclude", "anchors": ["src/mesh.cc:318", "src/mesh.cc:432"]}
{"id": "C06", "title": "Blank lines are skipped", "statement": "Inserting an empty line (LF or CRLF) anywhere in a loadable RDF file does not change the result of load.", "quantifier": "every file, every position", "why_tests_cant": "positions and files are unbounded", "anchors": ["src/mesh.cc:276"]}
{"id": "C07", "title": "Loading is all-or-nothing and repeatable", "statement": "If load throws the mesh still answers as before; loading a file into a mesh replaces its content.", "quantifier": "every mesh state and every file", "why_tests_cant": "histories are unbounded", "anchors": ["src/mesh.cc: mesh::load"]}
{"id": "C08", "title": "Triangle ids equal positions", "statement": "After a successful load, mesh[i]->id() == i and mesh[i]->bbox().id() == i for every i < size().", "quantifier": "every loadable file and every i", "why_tests_cant": "unbounded sizes", "anchors": ["src/mesh.cc: mesh::load", "src/triangleground.cc: updateBBox"]}
{"id": "C09", "title": "AABB tree build is total and lossless", "statement": "Building the tree terminates on every list of boxes (NaN coordinates included), its leaves are exactly the given boxes each once, every inner node has two children, so n boxes give 2n-1 nodes.", "quantifier": "every finite list of boxes, NaN included", "why_tests_cant": "termination for all inputs cannot be tested", "anchors": ["toolbox/src/AABBtree.cc: AABBtree::build"]}
{"id": "C10", "title": "Mesh query is exact", "statement": "For a mesh produced by load, intersection(box) returns each triangle whose bounding box overlaps the query box exactly once and no other triangle, and returns true iff the result is nonempty, provided no coordinate is NaN.", "quantifier": "every mesh size, every triangle soup, every query box", "why_tests_cant": "pruning errors depend on unbounded tree shapes", "anchors": ["src/mesh.cc: mesh::intersection", "toolbox/src/AABBtree.cc: AABBtree::intersection", "toolbox/src/aabb.cc: intersects, merged"]}
{"id": "C11", "title": "Query answers do not depend on triangle order", "statement": "Permuting the triangles of a mesh only permutes the answer of every query.", "quantifier": "every permutation, every mesh, every query box", "why_tests_cant": "n! orders", "anchors": ["toolbox/src/AABBtree.cc: AABBtree::build, AABBtree::intersection"]}
{"id": "C12", "title": "Pair orientation", "statement": "Every pair reported by a tree/tree intersection has its first box from the first tree and its second box from the second tree, and the pairs are exactly the overlapping pairs, each once, whatever the internal swapping.", "quantifier": "every two non-empty trees without NaN", "why_tests_cant": "unbounded tree shapes", "anchors": ["toolbox/src/AABBtree.cc: AABBtree::intersection"]}
{"id": "C13", "title": "Collision test is exact", "statement": "collision(tree, f) returns true iff some overlapping pair of leaf boxes satisfies f, with arguments in the caller's order.", "quantifier": "every two non-empty trees without NaN, every predicate f", "why_tests_cant": "unbounded tree shapes", "anchors": ["toolbox/src/acme/AABBtree.hxx: AABBtree::collision"]}
{"id": "C14", "title": "A NaN triangle does not hide other triangles", "statement": "If one triangle of a mesh has a NaN coordinate, queries still return every other triangle that overlaps the query box.", "quantifier": "every mesh and query", "why_tests_cant": "depends on unbounded tree shapes", "anchors": ["toolbox/src/aabb.cc: merged", "toolbox/src/AABBtree.cc"]}
{"id": "C15", "title": "Queries reflect the current triangles after any history", "statement": "After any sequence of construct, load, copy and clear operations a query is defined and returns triangles of the current mesh only.", "quantifier": "every operation sequence", "why_tests_cant": "histories are unbounded", "anchors": ["src/mesh.cc: mesh::copy, mesh::clear, mesh::intersection, mesh::buildAABBtree"]}
{"id": "C16", "title": "Mesh built from a triangle vector answers with its own triangles", "statement": "mesh(triangles) answers queries with the triangles whose boxes overlap, whatever their ids.", "quantifier": "every triangle vector", "why_tests_cant": "unbounded", "anchors": ["src/mesh.cc: mesh::mesh(triangles), mesh::intersection"]}
{"id": "C17", "title": "Triangle bounding box is sound and tight", "statement": "bbox() of a ground triangle contains every point of the triangle and each of its six bounds is attained by a vertex.", "quantifier": "every triangle, every point of it", "why_tests_cant": "continuum of points", "anchors": ["src/triangleground.cc: updateBBox", "toolbox/src/aabb.cc: clamp"]}
{"id": "C18", "title": "Triangle normal is a unit upward normal", "statement": "normal() of every non-degenerate ground triangle is a unit vector orthogonal to its edges with z >= 0, whatever the vertex order.", "quantifier": "every non-degenerate triangle", "why_tests_cant": "continuum", "anchors": ["src/triangleground.cc: updateNormal", "toolbox/src/triangle.cc: normal"]}
{"id": "C19", "title": "Flat ground construction", "statement": "Constructing a flat ground throws iff friction is not >= 0 or the normal's z is not > 0; otherwise the stored normal is the unit vector in the same direction (z > 0) and friction and origin are unchanged.", "quantifier": "every friction, origin, normal (NaN included for the throwing part)", "why_tests_cant": "continuum", "anchors": ["src/flat.cc: flat::flat"]}
{"id": "C20", "title": "Copies are faithful", "statement": "After a.copy(b), a answers every accessor as b does (ribs, ground triangles, flat grounds, shapes).", "quantifier": "every pair of objects", "why_tests_cant": "all objects", "anchors": ["src/rib.cc: rib::copy", "src/triangleground.cc: triangleground::copy", "src/flat.cc: flat::copy", "src/shape.cc: shape::copy"]}
{"id": "C21", "title": "Surface radius lies on the hyperellipse", "statement": "surfaceRadius(y) throws iff |y| > Ly; otherwise, for 0 < Ly <= Ry and positive degrees, it returns the r in [0,Rx] with (r/Rx)^Mx + (|y|/Ry)^My = 1; it is even in y and non-increasing in |y|.", "quantifier": "every shape and every y", "why_tests_cant": "continuum", "anchors": ["src/shape.cc: surfaceRadius, checkWidthBound"]}
{"id": "C22", "title": "Surface derivative is the derivative of the radius", "statement": "For 0 < |y| < Ry inside the width and |y| above the tolerance, surfaceDerivative(y) is the derivative of surfaceRadius at y; it is odd and within tolerance of 0 it is 0.", "quantifier": "every shape and y", "why_tests_cant": "continuum and limits", "anchors": ["src/shape.cc: surfaceDerivative"]}
{"id": "C23", "title": "Surface angle is bounded", "statement": "surfaceAngle(y) = atan(surfaceDerivative(y)) lies strictly between -pi/2 and pi/2, is odd, and has the sign opposite to y.", "quantifier": "every shape and y", "why_tests_cant": "continuum", "anchors": ["src/shape.cc: surfaceAngle"]}
{"id": "C24", "title": "Ribs tile the shell width", "statement": "A shell of n ribs has n ribs of equal width 2*Ly/n whose centers are (0, -Ly + (i+1/2)*2*Ly/n, 0): they cover [-Ly,Ly] without gap or overlap, symmetric about 0.", "quantifier": "every n > 0 and every shape", "why_tests_cant": "unbounded n", "anchors": ["src/shell.cc: shell::resize"]}
{"id": "C25", "title": "Rib radii and construction success", "statement": "Constructing or resizing with n > 0 on a shape with 0 < Rx, 0 < Ly <= Ry, positive degrees never throws, and every rib radius equals surfaceRadius at its center, lies in (0,Rx] and rib radii and angles are (anti)symmetric.", "quantifier": "every n > 0 and every valid shape", "why_tests_cant": "unbounded n, continuum of shapes", "anchors": ["src/shell.cc: shell::resize"]}
{"id": "C26", "title": "Resize is validated and history independent", "statement": "resize(0) throws and changes nothing; whenever resize(n) returns, size() == n and the ribs depend only on the shape and n, not on earlier sizes or setups.", "quantifier": "every shell state and n, any arithmetic", "why_tests_cant": "histories are unbounded", "anchors": ["src/shell.cc: shell::resize"]}
{"id": "C27", "title": "Pose operations keep the shell rigid", "statement": "Starting from construction, any sequence of translate and rotate (unit axis) calls leaves the linear part orthonormal with determinant 1; checkTransformation accepts it.", "quantifier": "every sequence of calls", "why_tests_cant": "histories are unbounded", "anchors": ["src/shell.cc: translate, rotate, checkTransformation"]}
{"id": "C28", "title": "checkTransformation rejects non-rigid poses", "statement": "checkTransformation(pose) returns true only if the linear part is orthonormal and right handed, and transform() refuses other poses.", "quantifier": "every matrix", "why_tests_cant": "continuum", "anchors": ["src/shell.cc: checkTransformation, transform"]}
{"id": "C29", "title": "The shell bounding box contains the shell", "statement": "After setup with a rigid pose every point of every rib disk lies inside bbox().", "quantifier": "every rigid pose, every shape, every rib point", "why_tests_cant": "continuum", "anchors": ["src/shell.cc: updateBBox"]}
{"id": "C30", "title": "Candidate filter is exact", "statement": "With a rigid pose, the triangles handed to rib j by the geometric method on more than three local triangles are exactly the local triangles having a point in the plane of rib j, in order; otherwise all local triangles.", "quantifier": "every rigid pose, every list of triangles, every rib", "why_tests_cant": "continuum and unbounded lists", "anchors": ["src/shell.cc: refineIntersection"]}
{"id": "C31", "title": "No relevant triangle is lost before the ribs", "statement": "If a triangle of the mesh shares with the disk of rib j a point lying in the shell bounding box, the triangle is among the candidates of rib j.", "quantifier": "every loaded mesh, every rigid pose, every rib", "why_tests_cant": "unbounded meshes", "anchors": ["src/shell.cc: setup, refineIntersection", "src/mesh.cc: intersection"]}
{"id": "C32", "title": "Setup is history independent", "statement": "The return value and all contact data after setup(ground, pose, method) depend only on the shape, the rib count, the ground, the pose and the method, not on any earlier operation.", "quantifier": "every two shells of equal shape and size reached by any histories", "why_tests_cant": "histories are unbounded", "anchors": ["src/shell.cc: setup, refineIntersection"]}
{"id": "C33", "title": "Mesh setup reports contact iff a rib has contact", "statement": "setup(mesh,...) returns true iff at least one rib envelop call returned true; then rib i's stored data are those of that rib's own envelop call.", "quantifier": "every mesh, pose, rib count", "why_tests_cant": "unbounded rib counts", "anchors": ["src/shell.cc: setup(mesh)"]}
{"id": "C34", "title": "Flat setup reports contact iff a rib has contact", "statement": "setup(flat,...) returns true iff at least one rib is in contact.", "quantifier": "every flat ground, pose, rib count", "why_tests_cant": "unbounded rib counts", "anchors": ["src/shell.cc: setup(flat)"]}
{"id": "C35", "title": "No-contact data", "statement": "Whenever a rib's envelop returns false (any ground, any method) its data are: point = lowest point of the rib in its own frame, normal = pose z axis, friction = depth = area = volume = 0; when setup(mesh) returns false all ribs hold such data and total volume, friction and depth are 0.", "quantifier": "every ground, pose, method, arithmetic", "why_tests_cant": "all inputs", "anchors": ["src/rib.cc: envelop"]}
{"id": "C36", "title": "Method names are validated", "statement": "envelop with a method other than \"geometric\" or \"sampling\" throws, for flat grounds and for meshes in range.", "quantifier": "every string", "why_tests_cant": "infinitely many strings", "anchors": ["src/rib.cc: envelop"]}
{"id": "C37", "title": "Method names are always validated", "statement": "setup with an invalid method name throws, wherever the shell is.", "quantifier": "every string, every pose", "why_tests_cant": "all poses", "anchors": ["src/shell.cc: setup(mesh)"]}
{"id": "C38", "title": "Flat contact point geometry", "statement": "For a rigid pose and unit-normal flat ground not parallel to the rib, when the rib is in contact the contact point lies on the ground plane and on the rib plane and is the point of their common line nearest to the rib center; depth = radius - distance(center, point) lies in [0, radius].", "quantifier": "every rigid pose, flat ground, rib", "why_tests_cant": "continuum", "anchors": ["src/rib.cc: envelopGeometric(flat)", "toolbox/src/intersection.cc: plane/plane, line/disk, plane/disk"]}
{"id": "C39", "title": "Flat contact detection", "statement": "Under the same conditions contact is reported iff the chord cut by the plane is longer than the tolerance (equivalently the squared half chord exceeds the thresholds), never for a plane missing the rib disk.", "quantifier": "every rigid pose, flat ground, rib", "why_tests_cant": "continuum", "anchors": ["src/rib.cc: envelopGeometric(flat)", "toolbox/src/intersection.cc"]}
{"id": "C40", "title": "Area and volume are those of the circular segment", "statement": "For every depth in [0, 2*radius] the reported area is chord length times width and the reported volume is the circular-segment area times width: 0 <= volume <= pi*r^2*width, increasing in depth with derivative chord*width.", "quantifier": "every radius, width, depth", "why_tests_cant": "continuum", "anchors": ["src/rib.cc:361-363", "src/rib.cc:431-433", "src/rib.cc:501-503"]}
{"id": "C41", "title": "Penetration grows as the wheel is lowered", "statement": "On horizontal ground, for an upright wheel, lowering the pose never decreases the reported depth.", "quantifier": "every height", "why_tests_cant": "continuum", "anchors": ["src/rib.cc: envelopGeometric(flat)"]}
{"id": "C42", "title": "Flat friction is the ground friction", "statement": "Any rib in contact with a flat ground, by either method, reports exactly the ground friction.", "quantifier": "every flat ground, pose, rib", "why_tests_cant": "continuum", "anchors": ["src/rib.cc: envelopGeometric(flat), envelopSampling(flat)"]}
{"id": "C43", "title": "Flat sampling matches geometry", "statement": "On flat ground with a rigid pose whose y axis is not vertical, the sampling method's contact point lies on the ground plane, its normal is the ground normal up to sign, and depth <= radius.", "quantifier": "every rigid pose and flat ground", "why_tests_cant": "continuum", "anchors": ["src/rib.cc: envelopSampling(flat)"]}
{"id": "C44", "title": "Vertical sampling picks the highest hit", "statement": "Each sampling line on a mesh returns the highest of all its intersection points with the candidate triangles, together with the friction of the very triangle that was hit (first one on ties), and fails iff there is none.", "quantifier": "every triangle list, every line, any arithmetic without NaN heights", "why_tests_cant": "unbounded lists", "anchors": ["src/rib.cc: samplingLine(triangles)"]}
{"id": "C45", "title": "Line/triangle hit is sound and complete", "statement": "Intersection(line, triangle) returns a point on the line that belongs to the triangle enlarged by the tolerance, and finds every crossing of a triangle not nearly parallel to the line.", "quantifier": "every line and triangle", "why_tests_cant": "continuum", "anchors": ["toolbox/src/intersection.cc:2415-2449"]}
{"id": "C46", "title": "Sampling depth, area, volume bounds", "statement": "When the sampling method reports contact, 0 < depth <= radius, area >= 0 and volume >= 0.", "quantifier": "every ground, pose, rib", "why_tests_cant": "continuum", "anchors": ["src/rib.cc: envelopSampling"]}
{"id": "C47", "title": "Sampling never exposes uninitialised data", "statement": "The result of the sampling method does not depend on the uninitialised temporaries it reads when some line misses.", "quantifier": "every ground, pose, rib, any content of the temporaries", "why_tests_cant": "uninitialised memory is not controllable in a test", "anchors": ["src/rib.cc: envelopSampling"]}
{"id": "C48", "title": "Mesh geometric outputs are bounded", "statement": "When the geometric method reports contact on a mesh with positive accumulated volume: friction lies between the smallest and largest friction of the candidates, area >= 0, volume >= 0, and 0 <= depth <= radius.", "quantifier": "every triangle list, rigid pose, rib", "why_tests_cant": "unbounded lists, continuum", "anchors": ["src/rib.cc: envelopGeometric(triangles)"]}
{"id": "C49", "title": "Mesh geometric result does not depend on triangle order", "statement": "Permuting the candidate triangles does not change the geometric result.", "quantifier": "every permutation", "why_tests_cant": "n! orders", "anchors": ["src/rib.cc: envelopGeometric(triangles)"]}
{"id": "C50", "title": "Reported contact comes with finite data", "statement": "Whenever the geometric method reports contact on a mesh, the contact point, friction and depth are numbers (not NaN).", "quantifier": "every triangle list, rigid pose, rib", "why_tests_cant": "continuum", "anchors": ["src/rib.cc:308-316"]}
{"id": "C51", "title": "Plane/plane intersection", "statement": "Intersection(plane, plane) returns a line contained in both planes, or false when they are parallel within tolerance.", "quantifier": "every two planes", "why_tests_cant": "continuum", "anchors": ["toolbox/src/intersection.cc:2277-2306"]}
{"id": "C52", "title": "Line/disk intersection", "statement": "Intersection(line, disk) for a line in the disk plane returns the chord: both end points are on the line and on the circle and every line point inside the disk lies between them.", "quantifier": "every line and disk", "why_tests_cant": "continuum", "anchors": ["toolbox/src/intersection.cc:1995-2029"]}
{"id": "C53", "title": "Segment/disk clipping", "statement": "Intersection(segment, disk) returns a sub-segment of the input contained in the disk containing every point of the segment in the disk.", "quantifier": "every segment and disk", "why_tests_cant": "continuum", "anchors": ["toolbox/src/intersection.cc:2199-2245"]}
{"id": "C54", "title": "Triangle/rib intersection is in both", "statement": "The end points produced for a triangle and a rib disk lie in the rib plane, inside the disk, and on the triangle enlarged by the tolerance.", "quantifier": "every triangle and disk", "why_tests_cant": "continuum", "anchors": ["toolbox/src/intersection.cc:2816-2829, 2658-2671, 1927-1991"]}
{"id": "C55", "title": "Shell averages stay within the rib values", "statement": "With non-negative rib volumes, total friction lies between the smallest and largest rib friction, total volume is the sum of rib volumes, total depth (contact case) lies between rib depths, and the contact point lies in the convex hull (bounding box) of rib points.", "quantifier": "every rib count and rib data", "why_tests_cant": "unbounded rib counts", "anchors": ["src/shell.cc: contactFriction, contactVolume, contactDepth, contactPoint"]}
{"id": "C56", "title": "Total contact area", "statement": "contactArea(total) is the sum of the rib areas.", "quantifier": "every rib count and rib data", "why_tests_cant": "unbounded", "anchors": ["src/shell.cc: contactArea"]}
{"id": "C57", "title": "Total contact depth without volume", "statement": "contactDepth(total) is the mean rib depth when the total volume is negligible.", "quantifier": "every rib count and data", "why_tests_cant": "unbounded", "anchors": ["src/shell.cc: contactDepth"]}
{"id": "C58", "title": "Scalar, indexed and vector accessors agree", "statement": "The vector accessors return size() entries, the i-th equal to the indexed accessor at i.", "quantifier": "every rib count and i", "why_tests_cant": "unbounded", "anchors": ["src/shell.cc: contact*"]}
{"id": "C59", "title": "Contact frame is orthonormal", "statement": "contactPointAffine returns a right-handed orthonormal frame whose z axis is the contact normal and whose origin is the contact point, whenever the normal is unit and not parallel to the wheel axis.", "quantifier": "every state", "why_tests_cant": "continuum", "anchors": ["src/shell.cc: contactPointAffine"]}
{"id": "C60", "title": "Contact storage is valid", "statement": "setup and every contact accessor access only existing elements of the contact data vector.", "quantifier": "every shell and operation", "why_tests_cant": "undefined behaviour can pass every test", "anchors": ["src/shell.cc:84, 462, 473, 498"]}
{"id": "C61", "title": "Contact storage has room for every rib count", "statement": "setup on a shell of any size writes inside the reserved contact storage.", "quantifier": "every size", "why_tests_cant": "unbounded sizes", "anchors": ["src/shell.cc:84"]}
{"id": "C62", "title": "Frame and angle vectors are sized by the accessor", "statement": "contactPointAffine(vector) and relativeAngles(vector) fill any caller vector with size() entries, like the other vector accessors.", "quantifier": "every caller vector and size", "why_tests_cant": "undefined behaviour", "anchors": ["src/shell.cc:838-888"]}
{"id": "C63", "title": "S-function bus", "statement": "enve_sfun_out writes rib i's data in slot i for i < min(size,20) and NaN in the remaining slots, and shell data from the setup that ran last.", "quantifier": "every size and state", "why_tests_cant": "unbounded sizes", "anchors": ["sfun/src_sfun/enve_sfun_interface.cc: enve_sfun_out"]}
{"id": "C64", "title": "S-function fallback", "statement": "With the mesh selected, when the mesh setup reports no contact the outputs are those of the flat ground and InMesh is 0; otherwise those of the mesh and InMesh is 1; invalid method or selector values throw.", "quantifier": "every input bus and selector value", "why_tests_cant": "all inputs", "anchors": ["sfun/src_sfun/enve_sfun_interface.cc: enve_sfun_out"]}
{"id": "C65", "title": "S-function matrices round-trip", "statement": "The 16-element column-major arrays of the buses decode and encode 4x4 matrices without mixing entries.", "quantifier": "every matrix", "why_tests_cant": "continuum", "anchors": ["sfun/src_sfun/enve_sfun_interface.cc"]}
{"id": "C66", "title": "The mesh and the flat geometric methods agree", "statement": "When the ground is one triangle that cuts the rib in a full chord under the axle, the geometric method on the mesh reports the same contact point, friction, depth, area and volume as the geometric method on the flat ground containing the triangle; the same normal too when the rib is perpendicular to the ground.", "quantifier": "every rib, rigid pose, triangle and plane containing it", "why_tests_cant": "continuum of poses and triangles", "anchors": ["src/rib.cc: envelopGeometric(triangles)", "src/rib.cc: envelopGeometric(flat)"]}
{"id": "C67", "title": "Attitude angles name the attitude", "statement": "The three Euler angles a shell reports rebuild its rotation in the documented Z-X-Y sequence, for every pose, wheel on its side included. The relative angles rebuild the rotation of the wheel from the contact frame, have no yaw, and the sine of the camber is the component of the axle along the contact normal.", "quantifier": "every shell, rigid pose, contact point and normal not parallel to the axle", "why_tests_cant": "a continuum of attitudes with a singular set (gimbal lock) and a jump that rounding can trigger", "anchors": ["src/shell.cc: eulerAngles", "src/shell.cc: relativeAngles", "src/shell.cc: contactPointAffine"]}
{"id": "C68", "title": "Relative angles of a rib", "statement": "The relative angles of a rib name the attitude of the wheel relative to the contact frame of that rib, corrected by the inclination of the rib.", "quantifier": "every shell, rigid pose, rib, contact normal", "why_tests_cant": "continuum of attitudes and rib inclinations", "anchors": ["src/shell.cc: relativeAngles(i, angles)", "src/enve/rib.hxx: angle"]}
{"id": "C69", "title": "A setup of valid input returns", "statement": "Setting up a shell of at most 200 ribs with a valid method name returns for every flat ground and, with the sampling method, for every loaded mesh, whatever the pose. With the geometric method it returns for every loaded mesh and pose; no arrangement of valid triangles and a valid pose makes it throw.", "quantifier": "every shell with any history, every pose, every flat ground, every mesh with a successful load in its history", "why_tests_cant": "the throwing branch is reached only on a thin set of poses, when a rib plane runs through a mesh vertex within a tolerance", "anchors": ["src/shell.cc: setup", "toolbox/src/intersection.cc: Intersection(line, triangle, segment)", "src/rib.cc: envelopGeometric"]}
{"id": "C70", "title": "A box built from two corners is the box they span", "statement": "Building a box from two points gives the same box whichever point holds the larger coordinate on each axis: a point is in it exactly when each of its coordinates lies between those of the two points. The id is kept, and the ordering check and the swap flag say whether the corners were in order.", "quantifier": "every pair of points without NaN, any totally ordered number type", "why_tests_cant": "2^3 orders of the corner coordinates times all values", "anchors": ["toolbox/src/aabb.cc: aabb(min, max)", "toolbox/src/aabb.cc: updateMaxMin", "toolbox/src/aabb.cc: checkMaxMin"]}
{"id": "C71", "title": "The intersection of two boxes is their common part", "statement": "Intersecting two boxes returns a box that contains exactly the points of both, and returns false exactly when they have no common point.", "quantifier": "every pair of proper boxes, any totally ordered number type", "why_tests_cant": "all relative positions of two boxes, touching ones included", "anchors": ["toolbox/src/intersection.cc: Intersection(aabb, aabb)", "toolbox/src/aabb.cc: intersects"]}
{"id": "C72", "title": "Distances from a point to a box", "statement": "centerDistance is the distance from the point to the nearest point of the box and exteriorDistance the distance to the farthest one.", "quantifier": "every box and point", "why_tests_cant": "continuum of positions; degenerate (flat) boxes", "anchors": ["toolbox/src/aabb.cc: centerDistance", "toolbox/src/aabb.cc: exteriorDistance"]}
{"id": "C73", "title": "Lengths, areas and volumes", "statement": "length, perimeter, area and volume of segments, triangles, disks and balls are the geometric ones.", "quantifier": "every segment, triangle, disk and ball", "why_tests_cant": "continuum of shapes; a wrong formula can agree on the tested radius", "anchors": ["toolbox/src/disk.cc: area", "toolbox/src/disk.cc: perimeter", "toolbox/src/ball.cc: area", "toolbox/src/ball.cc: volume", "toolbox/src/triangle.cc: area", "toolbox/src/triangle.cc: perimeter", "toolbox/src/segment.cc: length"]}
{"id": "C76", "title": "Three planes meet in their unique common point", "statement": "Intersecting three planes returns the only point they share; it returns false exactly when the determinant of the normals is below the tolerance.", "quantifier": "every three planes, every positive tolerance", "why_tests_cant": "continuum of planes, nearly dependent normals", "anchors": ["toolbox/src/intersection.cc: Intersection(plane, plane, plane, point)"]}
{"id": "C77", "title": "The chord of a ball", "statement": "Intersecting a line, a ray or a segment with a ball returns exactly the points they share with the ball; no segment is returned only when the chord is shorter than the tolerance or there are no common points.", "quantifier": "every line, ray, segment and ball, every positive tolerance", "why_tests_cant": "continuum of positions, unnormalised directions", "anchors": ["toolbox/src/intersection.cc: Intersection(line, ball, segment)", "toolbox/src/intersection.cc: Intersection(ray, ball, segment)", "toolbox/src/intersection.cc: Intersection(segment, ball, segment)"]}
{"id": "C78", "title": "The section of a ball by a plane", "statement": "Intersecting a plane with a ball returns the disk of their common points, and returns false exactly when there are none.", "quantifier": "every plane (any normal) and every ball", "why_tests_cant": "continuum of positions", "anchors": ["toolbox/src/intersection.cc: Intersection(plane, ball, disk)"]}
{"id": "C79", "title": "Where a ray or a segment crosses a plane", "statement": "The point returned for a ray or a segment and a plane is their only common point (within the tolerance of the end of a segment), and a transversal ray or segment that meets the plane is never missed.", "quantifier": "every ray, segment and plane, every positive tolerance", "why_tests_cant": "continuum of positions, start points on the plane", "anchors": ["toolbox/src/intersection.cc: Intersection(ray, plane, point)", "toolbox/src/intersection.cc: Intersection(plane, segment, point)"]}
{"id": "C80", "title": "Where a line, a ray or a segment pierces a triangle or a disk", "statement": "The point returned is the only common point, up to the tolerance at the rim of a triangle and at the ends of rays and segments; a transversal line, ray or segment that pierces the figure is not missed.", "quantifier": "every line, ray, segment, triangle and disk, every positive tolerance", "why_tests_cant": "continuum of positions, grazing incidence", "anchors": ["toolbox/src/intersection.cc: Intersection(ray, triangle, point)", "toolbox/src/intersection.cc: Intersection(segment, triangle, point)", "toolbox/src/intersection.cc: Intersection(line, disk, point)", "toolbox/src/intersection.cc: Intersection(ray, disk, point)", "toolbox/src/intersection.cc: Intersection(segment, disk, point)"]}
{"id": "C81", "title": "Crossing points of lines, rays and segments", "statement": "Two lines, rays or segments that cross are found to meet in their common point; a point is returned only if they meet.", "quantifier": "every pair of lines, rays, segments, every positive tolerance", "why_tests_cant": "continuum of positions, skew pairs", "anchors": ["toolbox/src/intersection.cc: Intersection(line, line, point)", "toolbox/src/intersection.cc: Intersection(ray, ray, point)", "toolbox/src/intersection.cc: Intersection(segment, segment, point)", "toolbox/src/intersection.cc: Intersection(line, ray, point)", "toolbox/src/intersection.cc: Intersection(ray, segment, point)"]}
{"id": "C74", "title": "Moving an entity moves its points", "statement": "translate, rotate and transform replace an entity by one of the same kind whose points are exactly the images of the points of the original.", "quantifier": "every entity of every kind, every vector, angle, unit axis and affine map", "why_tests_cant": "continuum of entities and maps; a wrong normal can agree on the tested maps", "anchors": ["toolbox/src/entity.cc: entity::rotate", "toolbox/src/plane.cc: plane::transform", "toolbox/src/disk.cc: disk::transform", "toolbox/src/ball.cc: ball::transform", "toolbox/src/line.cc: line::transform"]}
{"id": "C75", "title": "The clamp box of an entity", "statement": "clamp returns the smallest box around the entity, and fails exactly when the entity is empty or unbounded; isClampable says which.", "quantifier": "every entity of every kind", "why_tests_cant": "continuum of entities", "anchors": ["toolbox/src/segment.cc: segment::clamp", "toolbox/src/triangle.cc: triangle::clamp", "toolbox/src/disk.cc: disk::clamp", "toolbox/src/ball.cc: ball::clamp", "toolbox/src/point.cc: point::clamp"]}
{"id": "C82", "title": "Parallel, orthogonal, collinear and coplanar", "statement": "IsParallel, IsOrthogonal, IsCollinear and IsCoplanar of two entities hold exactly when the entities are so, up to the tolerance on sines, cosines and distances; entities on one line are found collinear and entities in one plane coplanar.", "quantifier": "every pair of entities, every tolerance", "why_tests_cant": "49 pairs of kinds times a continuum of positions", "anchors": ["toolbox/src/parallel.cc: IsParallel", "toolbox/src/orthogonal.cc: IsOrthogonal", "toolbox/src/collinear.cc: IsCollinear", "toolbox/src/coplanar.cc: IsCoplanar"]}
{"id": "C83", "title": "The run-time typed Intersection", "statement": "Intersection of two entities known at run time is defined for all of them, answers with an entity of no greater dimension than either argument or throws std::runtime_error, and does not depend on the order of the arguments.", "quantifier": "every pair of entities, every tolerance, every arithmetic (NaN included)", "why_tests_cant": "undefined behaviour cannot be excluded by tests; 81 pairs of kinds times all positions", "anchors": ["toolbox/src/intersection.cc: Intersection(entity, entity)"]}
{"id": "C84", "title": "Intersection of entities on one line", "statement": "Intersection of two lines, rays or segments of one line returns their common points.", "quantifier": "every pair of lines, rays and segments on one line, every positive tolerance", "why_tests_cant": "all overlaps of two intervals, touching ends included", "anchors": ["toolbox/src/intersection.cc: Intersection(ray, ray)", "toolbox/src/intersection.cc: Intersection(segment, segment, segment)", "toolbox/src/intersection.cc: Intersection(ray, segment, segment)", "toolbox/src/intersection.cc: Intersection(entity, entity)"]}
{"id": "C85", "title": "Collections of entities", "statement": "Counting, containment and all-of queries of a collection agree with its contents, transforms act on every entity, remove removes exactly the selected entities, and the candidate pairs of two collections are exactly the pairs whose boxes overlap, so that no pair that meets is lost.", "quantifier": "every collection, every selection, every pair of collections of bounded entities", "why_tests_cant": "histories and sizes are unbounded; a lost pair depends on the tree shape", "anchors": ["toolbox/src/collection.cc: collection::intersection", "toolbox/src/collection.cc: collection::clamp", "toolbox/src/collection.cc: collection::buildAABBtree", "toolbox/src/collection.cc: removePoint", "toolbox/src/collection.cc: countPoint", "toolbox/src/collection.cc: areSegment", "toolbox/src/collection.cc: containDegenerated", "toolbox/src/collection.cc: countNonClampable", "toolbox/src/collection.cc: collection::count"]}
{"id": "C86", "title": "Reversing, normalising and swapping keep the points", "statement": "reverse, normalize and swap do not change the set of points of a line, plane, segment, disk or triangle; normalising a ray keeps its points; a ray and its reverse are the two halves of their line.", "quantifier": "every entity, every pair of vertex indices", "why_tests_cant": "continuum of entities", "anchors": ["toolbox/src/line.cc: line::reverse", "toolbox/src/plane.cc: plane::reverse", "toolbox/src/ray.cc: ray::reverse", "toolbox/src/segment.cc: segment::swap", "toolbox/src/triangle.cc: triangle::swap", "toolbox/src/disk.cc: disk::reverse"]}
{"id": "C87", "title": "The contact data move with the world", "statement": "Moving the wheel and the ground together by a rotation and a translation gives the same answer of the enveloping call, and the same contact data with the point and the normal moved alike. With the geometric method on a plane this holds for every motion; otherwise for every motion that keeps the vertical.", "quantifier": "every rib, pose, plane and list of triangles, every rigid motion", "why_tests_cant": "continuum of motions; comparisons with tolerances relative to the world origin break it only on thin sets", "anchors": ["src/rib.cc: envelopGeometric", "src/rib.cc: envelopSampling", "src/shell.cc: setup", "toolbox/src/intersection.cc: Intersection(line, triangle, segment)"]}
{"id": "C88", "title": "Turning the wheel about its axle", "statement": "The shell is a surface of revolution: turning the wheel about its axle changes neither the answer nor the contact data of a contact.", "quantifier": "every rib of a shell, every pose, plane and list of triangles, every turn", "why_tests_cant": "continuum of poses and turns; tests use upright wheels", "anchors": ["src/rib.cc: envelopGeometric", "src/rib.cc: envelopSampling", "src/shell.cc: setup"]}
{"id": "C89", "title": "MATLAB handles are checked", "statement": "Every command of the MATLAB gateway, new excepted, refuses a first or second handle that is not a uint64 value, or that belongs to an object of another class, or that was deleted: it raises an error and changes nothing.", "quantifier": "every command of the four MEX files, every argument list, every set of live objects", "why_tests_cant": "any of the live objects of a long session can be passed to any command; a deleted handle is only sometimes recognised", "anchors": ["toolbox/src_mex/mex_utils.hh: mex_convert_mx_to_handle_ptr", "toolbox/src_mex/mex_shell.cc: do_*", "toolbox/src_mex/mex_flat.cc: do_*", "toolbox/src_mex/mex_mesh.cc: do_*", "toolbox/src_mex/mex_triangleground.cc: do_*"]}
{"id": "C90", "title": "A MATLAB call touches one object only", "statement": "In a session of MATLAB calls, an object changes only by a call applied to its own handle with one of the modifying commands; queries change nothing; a call that raises an error changes nothing.", "quantifier": "every session of calls of the four MEX files with any arguments, errors included", "why_tests_cant": "the number of objects and the order of calls are unbounded; aliasing appears only between particular objects", "anchors": ["toolbox/src_mex/mex_shell.cc: mexFunction", "toolbox/src_mex/mex_flat.cc: mexFunction", "toolbox/src_mex/mex_mesh.cc: mexFunction", "toolbox/src_mex/mex_triangleground.cc: mexFunction"]}
{"id": "C91", "title": "Creation and deletion from MATLAB", "statement": "new returns the handle of an object equal to the one built by the C++ constructor with the same values, or raises its error and creates nothing. delete frees this object and no other. new followed by delete leaves the set of objects and the locks as before. Live handles are always distinct.", "quantifier": "every constructor argument, every set of live objects, every session", "why_tests_cant": "all argument values and all histories of allocations", "anchors": ["toolbox/src_mex/mex_utils.hh: mex_class_handle", "toolbox/src_mex/mex_shell.cc: do_new, do_delete", "toolbox/src_mex/mex_flat.cc: do_new", "toolbox/src_mex/mex_triangleground.cc: do_new"]}
{"id": "C92", "title": "A MEX file stays locked while its objects live", "statement": "After every session the number of mexLock calls minus mexUnlock calls of a MEX file is the number of its live objects: it cannot be unloaded while an object lives and can be unloaded afterwards.", "quantifier": "every session of calls", "why_tests_cant": "depends on the whole history of calls of four MEX files", "anchors": ["toolbox/src_mex/mex_utils.hh: mex_convert_ptr_to_mx, mex_destroy_object"]}
{"id": "C93", "title": "Poses and setups pass through the gateway unchanged", "statement": "The 4x4 array given to transform is what transformation, translation, rotation, x, y and z return afterwards. translate adds the vector given. setupFlat and setupMesh do exactly what the C++ setup does with this pose, errors included.", "quantifier": "every wheel, every 16 numbers, every ground and method", "why_tests_cant": "16 real numbers; row and column order agree on symmetric examples", "anchors": ["toolbox/src_mex/mex_shell.cc: do_transform, do_transformation, do_rotation, do_translation, do_setupFlat, do_setupMesh"]}
{"id": "C94", "title": "Arrays of the wrong shape are rejected", "statement": "A vector argument that is not 3x1 and a pose that is not 4x4 raise an error.", "quantifier": "every wheel, every number of rows and columns", "why_tests_cant": "unbounded shapes", "anchors": ["toolbox/src_mex/mex_shell.cc: do_translate, do_transform"]}
{"id": "C95", "title": "Integer arguments mean their value", "statement": "A size or id of any numeric class of MATLAB is taken by its value; a value that does not fit raises an error.", "quantifier": "every integer class and value", "why_tests_cant": "2^64 values in eight classes", "anchors": ["toolbox/src_mex/mex_utils.hh: mex_get_int64", "toolbox/src_mex/mex_shell.cc: do_resize, do_size"]}
{"id": "C96", "title": "Every command can succeed", "statement": "Each command listed by a MEX file, and each command the MATLAB classes call, returns for some arguments in some session; commands that are not listed raise an error without effect.", "quantifier": "every command, every argument list, every state", "why_tests_cant": "that no argument makes a command succeed cannot be seen by trying some", "anchors": ["toolbox/src_mex/mex_shell.cc: cmd_to_fun, do_checkTransformation", "toolbox/src_mex/mex_mesh.cc: do_load", "toolbox/src_mex/mex_flat.cc: do_new", "toolbox/lib/enve_shell.m", "toolbox/lib/enve_triangleground.m"]}
{"id": "C97", "title": "Every object created from MATLAB can be freed", "statement": "Each object that a call creates is returned to MATLAB and can be deleted by a later call.", "quantifier": "every session of calls", "why_tests_cant": "leaks are not observable in the results", "anchors": ["toolbox/src_mex/mex_mesh.cc: do_new, do_getTrianglegroundVertices", "toolbox/src_mex/mex_shell.cc: do_ribCenter, do_contactPointAvg", "toolbox/src_mex/mex_flat.cc: do_getOrigin, do_getPlane"]}
{"id": "C98", "title": "Flat grounds reached from MATLAB are valid", "statement": "After every session with finite numbers, each live flat ground has a unit normal that points upwards and a friction that is not negative.", "quantifier": "every session of calls with finite numbers", "why_tests_cant": "unbounded histories of setters and copies", "anchors": ["toolbox/src_mex/mex_flat.cc: do_new, do_setOrigin, do_setNormal, do_setPlane, do_setFriction, do_copy"]}
{"id": "C99", "title": "MATLAB queries count from one and return the C++ data", "statement": "Rib, contact and triangle queries with index i return the data of the element i-1 of the C++ object, the averages those of the C++ accessors; an index out of range raises an error; a triangle taken from a mesh has the id, the vertices, the friction and the normal of the mesh triangle.", "quantifier": "every wheel, mesh, state and index", "why_tests_cant": "every size and index; the out of range reads often return plausible numbers", "anchors": ["toolbox/src_mex/mex_shell.cc: do_ribRadius, do_contactPointRib, do_contactPointAvg", "toolbox/src_mex/mex_mesh.cc: do_getTriangleground, do_getTrianglegroundVertices", "toolbox/src_mex/mex_triangleground.cc: do_getID"]}
{"id": "C100", "title": "The sampling method averages the highest ground under four probes", "statement": "With the sampling method on triangles, a contact means: the verticals through four points of the rib (a tenth of the radius ahead and behind, three tenths of the width left and right of the centre) all meet the ground; the contact point is the mean of the four highest points, the friction the mean of their frictions, the normal the unit normal of the two diagonals, and the depth, which is positive, is the radius times the sine of the angle between normal and axle minus the distance of the point from the centre. No contact means that a probe is over no ground or that this depth is not positive.", "quantifier": "every rib, rigid pose and list of triangles", "why_tests_cant": "continuum of poses; unbounded number of overlapping triangles", "anchors": ["src/rib.cc: envelopSampling", "src/rib.cc: samplingLine"]}
{"id": "C101", "title": "The box of the nearest object is always a candidate", "statement": "Selecting by minimum distance on a tree built from boxes returns, for every query point, exactly the boxes that may contain the object nearest to that point; whatever the objects are, the box of the nearest one is among them. Selecting by distance returns exactly the boxes with a point within that distance, and the minimum exterior distance is the smallest of the distances to the farthest points of the boxes.", "quantifier": "every non-empty list of boxes, every query point, every distance, every choice of objects inside the boxes", "why_tests_cant": "unbounded number of boxes and tree shapes; pruning must be right for a continuum of points", "anchors": ["toolbox/src/AABBtree.cc: selectMinimumDistance", "toolbox/src/AABBtree.cc: selectLessThanDistance", "toolbox/src/AABBtree.cc: minimumExteriorDistance"]}
{"id": "C102", "title": "The mesh geometric area and volume are those of the ground profile, however it is cut in triangles", "statement": "When the rib cuts the triangles in segments below the axle, the contact area the geometric method reports is the rib width times the total length of the segments, and the contact volume is the rib width times the area of the part of the rib disk that the segments hide from the hub. Replacing a triangle by two that cut the same segment in two pieces, with the same friction, changes neither the contact flag nor area, volume and friction. The contact point is in the convex hull of the segments; when all triangles are in one plane it is on that plane and the depth is at most the one the flat method reports.", "quantifier": "every rib, rigid pose, list of triangles (any number, any friction) that are missed or cut in segments of at least the tolerance below the axle, every split of a segment", "why_tests_cant": "ranges over every triangulation of a profile and every pose; involves an integral", "anchors": ["src/rib.cc: envelopGeometric(triangles)", "src/rib.cc: envelop"]}
{"id": "C103", "title": "Box queries and all intersections of a collection", "statement": "Asking a built collection with a list of boxes returns the entities whose boxes overlap one of them, once for each box overlapped, and loses no entity with a point in a box. The list of all intersections of a collection has one entry for every pair of its entities, an entity with itself included, in order, equal to the intersection of the pair.", "quantifier": "every collection of bounded entities, every list of proper boxes; every collection and tolerance for the list of intersections", "why_tests_cant": "sizes and tree shapes are unbounded; the position of a pair depends on the number of entities", "anchors": ["toolbox/src/collection.cc: collection::intersection", "toolbox/src/collection.cc: collection::buildAABBtree"]}
{"id": "C104", "title": "Collections that share entities and trees", "statement": "Moving a collection moves every entity it contains once and leaves the entities of collections that do not share it; a query changes only the collection for its result, whichever that is; a copy is a collection of its own; after a move or any other change queries answer for the current entities.", "quantifier": "every heap of entities, trees and collections, every collection in it, every choice of the collection for the result, every history of moves and builds", "why_tests_cant": "depends on which objects are shared, over every heap and history", "anchors": ["toolbox/src/collection.cc: collection::translate", "toolbox/src/collection.cc: collection::intersection", "toolbox/src/acme/collection.hxx: collection(collection const &)", "toolbox/src/acme/collection.hxx: collection(collection &&)"]}
{"id": "C105", "title": "A MATLAB script never passes a stale or foreign handle", "statement": "Whatever a script does with objects of the four classes, every gateway call made by their methods gets handles of live objects only; each object in use holds a live object of its class that no other object holds; deleting an object frees what it held, always succeeds and makes the object unusable; a script can end in undefined behaviour only inside its last gateway call.", "quantifier": "every sequence of constructions, method calls with any arguments, and deletions, and every choice of addresses by the allocator", "why_tests_cant": "histories are unbounded and depend on addresses reused by the allocator", "anchors": ["toolbox/lib/enve_shell.m: enve_shell", "toolbox/lib/enve_flat.m: enve_flat", "toolbox/lib/enve_mesh.m: enve_mesh", "toolbox/lib/enve_triangleground.m: enve_triangleground"]}
{"id": "C106", "title": "The methods of the MATLAB classes answer what the library computes", "statement": "Every query of a wheel, a flat ground, a mesh or a triangle returns the value of the corresponding C++ function for the object behind it, the queries on all ribs return one value per rib in order, setters and setups change that object alone, a ground of the wrong class is an error without effect, and every method and constructor call that is documented can succeed.", "quantifier": "every object, pose, number of ribs or triangles, argument", "why_tests_cant": "loops over an unbounded number of ribs; every object state", "anchors": ["toolbox/lib/enve_shell.m: contactPointVec", "toolbox/lib/enve_shell.m: setupFlat", "toolbox/lib/enve_shell.m: surfaceWidthBound", "toolbox/lib/enve_flat.m: setPlane", "toolbox/lib/enve_flat.m: copy", "toolbox/lib/enve_mesh.m: getTriangleground", "toolbox/lib/enve_mesh.m: getTriangle", "toolbox/lib/enve_triangleground.m: toTriangle", "toolbox/lib/enve_triangleground.m: setVertex1"]}
{"id": "C107", "title": "What a MATLAB script leaves behind", "statement": "The C++ objects alive after a script are those of the MATLAB objects not deleted; when all are deleted none is left.", "quantifier": "every script", "why_tests_cant": "histories are unbounded", "anchors": ["toolbox/lib/enve_flat.m: getOrigin", "toolbox/lib/enve_flat.m: getPlane", "toolbox/lib/enve_mesh.m: getTriangle", "toolbox/lib/enve_mesh.m: plot", "toolbox/lib/enve_shell.m: contactPointVec"]}
{"id": "C108", "title": "Constructing a mesh from MATLAB", "statement": "enve_mesh refuses files that do not exist or have another extension without touching the library; otherwise it gives the mesh that the loader reads from the file with the coefficient and the pose given, or raises an error.", "quantifier": "every file system, path, coefficient and pose array", "why_tests_cant": "every file content and array shape", "anchors": ["toolbox/lib/enve_mesh.m: enve_mesh", "toolbox/src_mex/mex_mesh.cc: do_new"]}
{"id": "C109", "title": "The remaining MATLAB commands do what the C++ functions do", "statement": "The shape queries, Euler angles and rotate of a wheel, the getters, setters, predicates and copy of a flat ground, the size and copy of a mesh, and the vertices and copy of a triangle return the value of the C++ function on the object behind the handle, or change this object as that function does and no other.", "quantifier": "every state of the gateways, live object and argument", "why_tests_cant": "every object state and every history that leads to it", "anchors": ["toolbox/src_mex/mex_shell.cc: do_surfaceRadius", "toolbox/src_mex/mex_flat.cc: do_setNormal", "toolbox/src_mex/mex_flat.cc: do_copy", "toolbox/src_mex/mex_mesh.cc: do_size", "toolbox/src_mex/mex_triangleground.cc: do_getVertex1"]}
{"id": "C110", "title": "isApprox is an approximate equality", "statement": "isApprox answers true exactly when the numbers of the two objects differ by less than the tolerance and their points and vectors agree up to the tolerance; it is reflexive and symmetric, does not depend on where the objects are, and uses the tolerance of the caller.", "quantifier": "every pair of entities, boxes, shapes, ribs, flat grounds and ground triangles, every tolerance and every common translation", "why_tests_cant": "all pairs of objects and tolerances", "anchors": ["toolbox/src/line.cc: line::isApprox", "toolbox/src/triangle.cc: triangle::isApprox", "toolbox/src/disk.cc: disk::isApprox", "toolbox/src/math.cc: IsApprox", "src/flat.cc: flat::isApprox", "src/triangleground.cc: triangleground::isApprox", "src/rib.cc: rib::isApprox", "src/shape.cc: shape::isApprox"]}
{"id": "C111", "title": "isDegenerated finds the entities without extent", "statement": "isDegenerated answers true for an entity exactly when a length that describes it is below the tolerance; an entity other than a point that consists of one point is degenerate, and so are triangles without area and boxes without volume.", "quantifier": "every entity, box and tolerance", "why_tests_cant": "all entities and tolerances", "anchors": ["toolbox/src/triangle.cc: triangle::isDegenerated", "toolbox/src/disk.cc: disk::isDegenerated", "toolbox/src/aabb.cc: aabb::isDegenerated", "toolbox/src/segment.cc: segment::isDegenerated"]}
{"id": "C112", "title": "isInside recognises the points of an entity", "statement": "isInside accepts every point of the entity, and the points that it accepts are within the tolerance of the entity.", "quantifier": "every line, ray, plane, segment, triangle, disk and ball, every point and every positive tolerance", "why_tests_cant": "all points and entities", "anchors": ["toolbox/src/line.cc: line::isInside", "toolbox/src/ray.cc: ray::isInside", "toolbox/src/segment.cc: segment::isInside", "toolbox/src/triangle.cc: triangle::isInside", "toolbox/src/disk.cc: disk::isInside", "toolbox/src/ball.cc: ball::isInside"]}
{"id": "C113", "title": "Angles between vectors, distances from a plane, moved boxes", "statement": "Angle returns the angle in [0, pi] between two non-null vectors; the distance from a plane with unit normal is the least distance from its points, signedDistance has its sign on the side of the normal and squaredDistance is its square; a translated box contains exactly the translated points.", "quantifier": "every pair of vectors, every plane, point and box", "why_tests_cant": "all vectors, planes and points", "anchors": ["toolbox/src/math.cc: Angle", "toolbox/src/plane.cc: plane::distance", "toolbox/src/plane.cc: plane::squaredDistance", "toolbox/src/aabb.cc: aabb::translate"]}
{"id": "C114", "title": "A simulation with the S-function blocks", "statement": "An initialisation succeeds exactly when the ground file named by the environment, the flat ground and the wheel can be built, and puts these in force; an initialisation that fails leaves in force what was; every later output depends only on the last successful initialisation and on its own inputs; each block uses the wheel it was initialised with; the objects are freed at the end.", "quantifier": "every sequence of initialisation, output and termination calls, with returns and exceptions, and every file and parameter", "why_tests_cant": "all call histories", "anchors": ["sfun/src_sfun/enve_sfun_interface.cc: enve_sfun_init", "sfun/src_sfun/enve_sfun_interface.cc: enve_sfun_out", "sfun/src_sfun/enve_sfun_interface.cc: enve_sfun_end"]}
{"id": "C115", "title": "What is drawn of a wheel", "statement": "Every point of the grid returned by meshShell and of the surface drawn by plotShape and shellShape is on the tread, the surface swept by the profile around the axis, placed where the wheel is; profile draws points of the profile; plotRibs draws the disks that setup intersects with the ground; plotEnve draws, for each rib, the cone tangent to the tread along it; plotSetupAvg, plotSetupRib and plotSetupVec draw the contact frames; the wheel is unchanged.", "quantifier": "every wheel with any history, every pose and every number of ribs", "why_tests_cant": "all shapes, poses and rib counts, all points of the grids", "anchors": ["toolbox/lib/enve_shell.m: profile", "toolbox/lib/enve_shell.m: shapeTplot", "toolbox/lib/enve_shell.m: enveTplot", "toolbox/lib/enve_shell.m: ribsTplot", "toolbox/lib/enve_shell.m: plotSetupVec", "toolbox/lib/enve_shell.m: meshShell"]}
{"id": "C116", "title": "Printed reports", "statement": "In the report printed by a shape, a plane, a triangle, a mesh, a tree of boxes or a wheel, every value printed after a label is the quantity the label names, as the corresponding query returns it; a mesh report lists every triangle once, in order; a tree report contains every box the tree was built on; reports of wheels list every rib in order with its number; printing a wheel that has been set up always returns.", "quantifier": "every object, with any number of triangles, boxes or ribs", "why_tests_cant": "all sizes and states", "anchors": ["src/shape.cc: shape::print", "src/flat.cc: flat::print", "src/triangleground.cc: triangleground::print", "src/mesh.cc: mesh::print", "src/shell.cc: shell::print", "toolbox/src/AABBtree.cc: AABBtree::print", "toolbox/src/utilities.cc: operator<<"]}
{"id": "C117", "title": "Ground triangles changed in place", "statement": "Reading or assigning a vertex of a triangle by index uses the vertex of that index, its edges go round it, and a wrong index is reported. However a ground triangle is moved, or its vertices exchanged or replaced, it keeps its identifier and friction, covers exactly the moved points, and its normal and bounding box are those of the triangle it has become, so that a mesh made of moved triangles finds them where they are.", "quantifier": "every triangle, index and sequence of movements", "why_tests_cant": "all sequences of changes and all shapes", "anchors": ["src/enve/triangleground.hxx: triangleground", "src/triangleground.cc: triangleground::vertex", "toolbox/src/triangle.cc: triangle::vertex, triangle::edge, triangle::translate, triangle::transform, triangle::swap", "toolbox/src/segment.cc: segment::vertex", "toolbox/src/aabb.cc: aabb::clear", "src/mesh.cc: mesh::intersection"]}
{"id": "C118", "title": "Contact with flat ground at neighbouring places", "statement": "On flat ground the reported penetration depth follows the pose: when the wheel is moved or turned a little, the depth of every rib, and with it the contact area and the contact volume of the wheel, change only a little, with an explicit bound, whether or not the rib is in contact before and after. The two methods agree on the depth up to the cosine of the inclination of the axle on level ground.", "quantifier": "every rib, wheel, pair of rigid poses and ground plane", "why_tests_cant": "continuity over all poses; the worst case is at the onset of contact", "anchors": ["src/rib.cc: rib::envelop, rib::envelopGeometric, rib::envelopSampling", "src/shell.cc: shell::setup, shell::contactVolume", "src/output.hh: output"]}
{"id": "C119", "title": "Flat ground modelled by triangles, sampling method", "statement": "A flat ground and a mesh whose triangles lie in the same plane with the same friction give the same contact data with the sampling method, however the ground is cut into triangles: every contact reported on the mesh is the one reported on the flat ground, and where the mesh has ground under the four sampling points of a rib, and near the wheel, the answers are equal, contact or not. On level ground this holds for the whole wheel.", "quantifier": "every rib, wheel, rigid pose, ground plane that is not vertical, and way of cutting it into triangles", "why_tests_cant": "all ways of cutting a plane into triangles and all poses", "anchors": ["src/rib.cc: rib::envelopSampling, rib::samplingLine", "src/shell.cc: shell::setup", "src/mesh.cc: mesh::intersection", "src/flat.cc: flat"]}
{"id": "C120", "title": "Contact data in double precision", "statement": "With binary64 rounding at every step, for every rib of positive radius up to 2^300 and every pose and ground given as doubles: contact reported by the sampling method has positive depth; contact reported by the geometric method on flat ground with a depth that is not negative has a depth of at most the radius; and whenever the reported depth is between zero and the diameter, depth, area and volume are finite and the area is not negative. (False of the code without that proviso: far from the origin the geometric method reports contact with negative depth and NaN area for a wheel in the air.)", "quantifier": "every rib, pose, flat ground or list of triangles made of binary64 numbers, and every C library whose arccosine is right on [-1,1]", "why_tests_cant": "all doubles and all rounding errors", "anchors": ["src/rib.cc: rib::envelopSampling, rib::envelopGeometric", "toolbox/src/intersection.cc: Intersection(plane, disk), Intersection(line, disk)"]}
{"id": "C121", "title": "Friction in double precision", "statement": "With binary64 rounding at every step, the friction reported by the sampling method lies between the least and the greatest friction of the ground triangles, and on ground of uniform friction it is exactly that friction. (False of the geometric method on triangles, which can miss a uniform friction by rounding.)", "quantifier": "every rib, pose, flat ground or list of triangles, every friction up to 2^1000 and every C library", "why_tests_cant": "all doubles and all rounding errors", "anchors": ["src/rib.cc: rib::envelopSampling, rib::samplingLine, rib::envelopGeometric"]}
{"id": "C122", "title": "Places of the ribs in double precision", "statement": "With binary64 rounding at every step, a wheel built with up to 2^20 ribs has each rib within the half width of the profile, at the middle of its band up to (4i+9) rounding units of the half width for the i-th rib, and as wide as its band up to 2^-52 relative; so rounding never makes construction fail by putting a rib outside the profile.", "quantifier": "every half width from 2^-300 to 2^300, every number of ribs up to 2^20, every shape and every C library", "why_tests_cant": "all doubles and all accumulated rounding errors", "anchors": ["src/shell.cc: shell::shell, shell::resize", "src/rib.cc: rib::rib", "src/shape.cc: shape::surfaceRadius"]}
{"id": "C123", "title": "The profile of the wheel in double precision", "statement": "With binary64 rounding at every step, the radius of the profile at any place within the half width is a finite number between 0 and Rx, is the same to the last bit on both sides of the wheel, and never grows away from the middle; so every rib of a wheel has a positive radius of at most Rx.", "quantifier": "every shape with measures from 2^-300 to 2^300 and half width at most Ry, every place, every number of ribs up to 2^20, every C library whose pow keeps [0,1] for positive exponents and does not decrease there", "why_tests_cant": "all doubles and all rounding errors", "anchors": ["src/shape.cc: shape::surfaceRadius, shape::checkWidthBound", "src/shell.cc: shell::resize, shell::ribRadius"]}
{"id": "C124", "title": "Averages over the ribs in double precision", "statement": "With binary64 rounding at every step, the friction the wheel reports lies between any bounds on the frictions of its ribs, and the depth (if the total volume reaches the tolerance 2^-26) between any bounds on their depths, up to a relative error of (4n+4)/2^53 for n ribs and an absolute error of 2^-1000; the computed total volume differs from the exact sum of the volumes by at most that relative error. (False of the code without these errors: ribs that all report 7/8 can give a wheel that reports more than 7/8.)", "quantifier": "every wheel of 1 to 2^20 ribs (for the volume also none) whose volumes and figures are doubles from 0 to 2^300, every C library", "why_tests_cant": "all doubles and all accumulated rounding errors", "anchors": ["src/shell.cc: shell::contactFriction, shell::contactDepth, shell::contactVolume"]}
{"id": "C125", "title": "Area and volume in double precision", "statement": "With binary64 rounding at every step, area and volume reported for a rib in contact are those of the slice of a cylinder cut at the reported depth, up to 2^-22 of radius times width and of radius squared times width; so the volume is never below zero by more than that. (That it is never below zero is false of the code: a contact one rounding unit deep can be reported with a negative volume.)", "quantifier": "every rib with radius and width from 2^-300 to 2^300, every pose and ground made of binary64 numbers, sampling method on flat ground and triangles (reported depth at most the diameter) and geometric method on flat ground (reported depth not negative), every C library whose arccosine is right up to 2^-50 on [-1,1]", "why_tests_cant": "all doubles and all rounding errors, with cancellation", "anchors": ["src/rib.cc: rib::envelopSampling, rib::envelopGeometric"]}
{"id": "C126", "title": "What the whole wheel reports on flat ground", "statement": "A wheel in contact with flat ground reports, as a whole, the friction of the ground, a contact point on the ground and the normal of the ground. (Proved when the total contact volume is at least EPSILON_ENVE; the sampling method reverses the normal when it and the up axis of the wheel point to opposite vertical sides. Below that volume it is false of the code: the friction is that of the ground times the share of the ribs that touch.)", "quantifier": "every constructed or resized wheel of any rib count, every rigid pose, every plane with unit normal, every friction, both methods", "why_tests_cant": "the averages range over all rib counts and all real depths, and the switch at EPSILON_ENVE is met by a thin set of poses", "anchors": ["src/shell.cc: shell::setup, shell::contactFriction, shell::contactPoint, shell::contactNormal"]}
{"id": "C127", "title": "Intersections with points, with a containing plane, and of a disk with what runs in its plane", "statement": "The run-time typed Intersection returns: a point, when it counts as inside the other entity, and nothing otherwise; a line, ray, segment, disk or plane whole when the plane it is intersected with contains it; and for a line, ray or segment in the plane of a disk exactly the common points. (Proved for half chords that are not near zero; near tangency the point of the line nearest to the centre is returned if it belongs to the entity; exactly at the tolerance it is false of the code: a ray that passes by the disk is said to meet it in its own origin.)", "quantifier": "every point, line, ray, segment, triangle, disk and plane with real coordinates, every positive tolerance", "why_tests_cant": "the pairs of entities range over real coordinates and the failing case is a single value of the discriminant", "anchors": ["toolbox/src/intersection.cc: Intersection(entity, entity), Intersection(ray, disk, segment), Intersection(point, ...), Intersection(plane, ...)"]}
{"id": "C128", "title": "What the whole wheel reports on a mesh", "statement": "After a setup on a mesh whose triangles have frictions in a range, a wheel that hides at least EPSILON of volume reports a friction in that range and a depth between zero and its radius, with either method. (Proved for the sampling method, and for the geometric method when no rib reports an undefined friction; one such rib makes the friction of the wheel undefined, and a step edge below the axle produces one, so without that condition it is false of the code.)", "quantifier": "every shell, every mesh of any size with real coordinates, every rigid pose, both methods", "why_tests_cant": "ranges over meshes of any size and all poses; the failing configuration needs a triangle whose plane contains the axle", "anchors": ["src/shell.cc: shell::setup(mesh, affine, method), shell::contactFriction(real &), shell::contactDepth(real &); src/rib.cc: rib::envelop"]}
{"id": "C129", "title": "The contact point of the wheel is in the wheel", "statement": "After a setup, on flat ground or on a mesh, with either method and with or without contact, the contact point the wheel reports lies within its radius of the part of the axle it covers. (Proved on flat ground, on meshes with the sampling method, and on meshes with the geometric method when no rib reports an undefined friction; a step edge below the axle of one rib leaves the wheel without a contact point, so without that condition it is false of the code.)", "quantifier": "every shell, every plane, every mesh of any size with real coordinates, every rigid pose, both methods", "why_tests_cant": "ranges over meshes of any size, planes and all poses", "anchors": ["src/shell.cc: shell::setup(mesh, affine, method), shell::setup(flat, affine, method), shell::contactPoint(point &); src/rib.cc: rib::envelop"]}
{"id": "C130", "title": "The normal the wheel reports with the sampling method", "statement": "After a setup with the sampling method, on flat ground or on a mesh whose triangles may be turned either way, with or without contact, the normal the wheel reports is a unit vector, and it points up exactly when the vertical axis of the wheel does, provided that axis is not horizontal.", "quantifier": "every shell, every plane, every mesh of any size with real coordinates, every rigid pose whose vertical axis is not horizontal", "why_tests_cant": "ranges over meshes of any size, planes and all poses; the mean of several unit normals could vanish or turn over", "anchors": ["src/shell.cc: shell::setup(mesh, affine, method), shell::setup(flat, affine, method), shell::contactNormal(vec3 &); src/rib.cc: rib::envelopSampling"]}
{"id": "C131", "title": "Contact frames with the sampling method", "statement": "After a setup with the sampling method on a mesh, every rib in contact has a contact frame: a rigid frame at its contact point, third axis the normal, second axis along the axle. A wheel whose axle is level and whose vertical axis is not has such a frame as a whole, on a mesh or on flat ground, with or without contact, and turning that frame by the relative angles gives the attitude of the wheel.", "quantifier": "every shell, every plane, every mesh of any size with real coordinates, every rigid pose", "why_tests_cant": "ranges over meshes of any size and all poses; the frame is undefined as soon as the normal is parallel to the axle", "anchors": ["src/shell.cc: shell::setup(mesh, affine, method), shell::setup(flat, affine, method), shell::contactPointAffine, shell::relativeAngles"]}
{"id": "C132", "title": "The volume the wheel hides is at most half its cylinder", "statement": "After a setup on flat ground with either method, or on a mesh with the sampling method, the contact volume of the whole shell is a number between zero and half the volume of the cylinder with the largest radius and the full width of the shell, however deep the shell lies and however many ribs it has.", "quantifier": "every shell with any number of ribs, every plane, every mesh of any size with real coordinates, every rigid pose", "why_tests_cant": "ranges over any number of ribs, meshes of any size and all poses", "anchors": ["src/shell.cc: shell::setup(mesh, affine, method), shell::setup(flat, affine, method), shell::contactVolume; src/rib.cc: rib::envelop"]}
{"id": "C133", "title": "Pressing the wheel into flat ground", "statement": "With either method, on flat ground of any inclination and for a wheel in any attitude, moving the wheel towards the ground without turning it never loses the contact of a rib and never reduces the depth or the volume a rib reports, as long as the center of the rib stays above the ground; the contact volume of the whole shell does not decrease as long as its axle stays above the ground.", "quantifier": "every shell with any number of ribs, every plane, every rigid pose, every displacement towards the ground, both methods", "why_tests_cant": "ranges over a continuum of poses and displacements and any number of ribs", "anchors": ["src/rib.cc: rib::envelopGeometric(flat), rib::envelopSampling(flat); src/shell.cc: shell::setup(flat, affine, method), shell::contactVolume"]}
{"id": "C134", "title": "A wheel clear of the ground reports no contact", "statement": "When the whole axle of a shell is higher above every vertex of a mesh than the largest radius (plus the edge margin of the library), a setup on that mesh with either method reports no contact, and volume, friction and depth of the shell are zero. On flat ground the same holds when no point of the axle comes closer to the plane than the largest radius, on either side: no contact is reported and every rib holds the no-contact data.", "quantifier": "every shell with any number of ribs, every mesh of any size with real coordinates, every plane, every rigid pose, both methods", "why_tests_cant": "ranges over meshes of any size and all poses; a false contact can come from a single triangle", "anchors": ["src/shell.cc: shell::setup(mesh, affine, method), shell::setup(flat, affine, method); src/rib.cc: rib::envelopGeometric, rib::envelopSampling"]}
{"id": "C135", "title": "The contact point lies in the hull of the ground", "statement": "With the sampling method on a mesh, the contact point of a rib in contact, and of the whole shell when its contact volume is not negligible, lies in every slab (of any direction) that holds all triangles, up to the margin the library allows outside the edges of a triangle. On a mesh whose vertices all have one height, the contact point of the shell has exactly that height.", "quantifier": "every shell with any number of ribs, every mesh of any size with real coordinates, every rigid pose, every direction", "why_tests_cant": "ranges over meshes of any size, all poses and all directions", "anchors": ["src/rib.cc: rib::envelopSampling(triangles), rib::samplingLine; src/shell.cc: shell::setup(mesh, affine, method), shell::contactPoint"]}
{"id": "C136", "title": "The contact point of the geometric method lies on the ground it was cut from", "statement": "With the geometric method, the contact point a rib reports for one triangle lies on the segment the rib cuts out of it, when the segment lies in the disk of the rib and under its axle. For any number of triangles under the axle of the rib, the contact point of a rib that reports a volume other than zero lies in every slab (of any direction) that holds all triangles, up to the margin the library allows outside the edges of a triangle. The same holds for the contact point of the whole shell on a mesh under its axle, when every rib reports a defined friction and the contact volume is not negligible.", "quantifier": "every rib, every shell with any number of ribs, every rigid pose, every mesh or list of triangles under the axle, every direction", "why_tests_cant": "ranges over any number of triangles, all poses and all directions", "anchors": ["src/rib.cc: rib::envelopGeometric(triangles), rib::envelop", "src/shell.cc: shell::setup(mesh, affine, method), shell::contactPoint"]}
{"id": "C137", "title": "The depth is at most how far the wheel reaches below the ground", "statement": "On triangles, the depth a rib in contact reports is at most its radius less the height of its center over the highest point of the triangles, seen along any direction and up to the margin the library allows outside the edges of a triangle. For the whole shell with a contact volume that is not negligible: when the axle is at least k over the highest ground, the contact depth is between zero and the radius less k. With the sampling method this holds wherever the triangles lie; with the geometric method for triangles under the axle, ribs with nonzero contact volume and, for the shell, defined frictions of all ribs.", "quantifier": "every rib, every shell with any number of ribs, every rigid pose, every mesh or list of triangles (geometric method: under the axle), every direction", "why_tests_cant": "ranges over any number of triangles, all poses and all directions", "anchors": ["src/rib.cc: rib::envelopGeometric(triangles), rib::envelop; src/shell.cc: shell::setup(mesh, affine, method), shell::contactDepth", "src/rib.cc: rib::envelopSampling(triangles)"]}

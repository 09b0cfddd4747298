# Formal model of StoccoDavide/enve in Rocq (Coq 8.16.1)

## Plan (written before the proofs)

The model is a set of total Gallina functions, one per C++ function, generic in the number type `K` (class `Num`).
Structural properties are proved for every `K` (hence for IEEE doubles with NaN); ordering properties for every `K` whose comparison is a total order away from NaN; geometric properties on exact real arithmetic extended with infinities and NaN (`ER`), so that no division or root is totalised. Findings are exhibited on executable IEEE binary64 (`SpecFloat`) or on `ER`.
Undefined behaviour is a distinct outcome `UB`, exceptions a distinct outcome `Throw`.

| id | property | how |
|---|---|---|
| C01 | RDF load round-trip | Loader model over byte strings; printers written independently (SpecLoad.v); round trip by induction on the lines with a loop invariant on (nodes, triangles, section). |
| C02 | OBJ load round-trip | Same, OBJ. |
| C03 | A successful load means every data line was well formed | Specification = a line classifier independent of the loop; induction over lines. |
| C04 | Loader rejects negative indices and negative or NaN friction | Invariant of the loader loop + single-line lemma. |
| C05 | Loader index safety | False of the code (finding): refuted with a concrete file; plus 'UB only if some index is out of range'. |
| C06 | Blank lines are skipped | False of the code (finding): refuted; plus the true variant (comment lines, CR line endings). |
| C07 | Loading is all-or-nothing and repeatable | False of the code (finding): refuted by a two-step history; plus the true variant for a first load. |
| C08 | Triangle ids equal positions | Corollary of the loader invariant. |
| C09 | AABB tree build is total and lossless | Tree model with well-founded build (fuel = length, proved sufficient); permutation + node count by strong induction. |
| C10 | Mesh query is exact | Tree invariant 'node box covers descendants' under order laws; exactness by induction on both trees. |
| C11 | Query answers do not depend on triangle order | Corollary of C10. |
| C12 | Pair orientation | As C10 for two arbitrary trees, swap flag generalised in the induction. |
| C13 | Collision test is exact | As C10 for the collision recursion. |
| C14 | A NaN triangle does not hide other triangles | False of the code (finding): IEEE double witness. |
| C15 | Queries reflect the current triangles after any history | Mesh as a state machine over {construct, load, copy, clear}; safe fragment proved by invariant, full claim refuted. |
| C16 | Mesh built from a triangle vector answers with its own triangles | True when ids are the positions; refuted otherwise. |
| C17 | Triangle bounding box is sound and tight | Convex-combination argument over R; tightness over any ordered K. |
| C18 | Triangle normal is a unit upward normal | Vector algebra over R lifted to the exact-arithmetic model with NaN. |
| C19 | Flat ground construction | Any K for the throwing part; exact arithmetic for the unit normal. |
| C20 | Copies are faithful | Per class: proved where true, refuted for rib (y) and triangleground (id). |
| C21 | Surface radius lies on the hyperellipse | Real analysis with Rpower. |
| C22 | Surface derivative is the derivative of the radius | derivable_pt_lim / is_derive of the closed form. |
| C23 | Surface angle is bounded | atan bounds. |
| C24 | Ribs tile the shell width | Closed form of the accumulated y by induction on the loop. |
| C25 | Rib radii and construction success | From C21 and C24. |
| C26 | Resize is validated and history independent | Any K: resize output does not mention the old state. |
| C27 | Pose operations keep the shell rigid | Invariant over operation sequences; Rodrigues matrix is orthonormal. |
| C28 | checkTransformation rejects non-rigid poses | False (finding): shear witness; true variant: det within tol. |
| C29 | The shell bounding box contains the shell | False in general (finding, cambered shells): refuted; conditional version proved. |
| C30 | Candidate filter is exact | Sign-sum analysis of the filter against the plane/triangle intersection over R. |
| C31 | No relevant triangle is lost before the ribs | C10 + C17 + C30. |
| C32 | Setup is history independent | Any K: setup output equal for states equal on the inputs. |
| C33 | Mesh setup reports contact iff a rib has contact | Induction over ribs. |
| C34 | Flat setup reports contact iff a rib has contact | False (finding): refuted; true variant: last rib. |
| C35 | No-contact data | Any K: case analysis of each envelop path. |
| C36 | Method names are validated | Any K. |
| C37 | Method names are always validated | False (finding): refuted. |
| C38 | Flat contact point geometry | Plane/plane + line/disk lemmas over R, lifted. |
| C39 | Flat contact detection | Same. |
| C40 | Area and volume are those of the circular segment | Derivative of the segment formula; integral characterisation. |
| C41 | Penetration grows as the wheel is lowered | Proved above the hub, refuted below (finding). |
| C42 | Flat friction is the ground friction | Any K. |
| C43 | Flat sampling matches geometry | Vector algebra over R. |
| C44 | Vertical sampling picks the highest hit | Fold invariant, order laws. |
| C45 | Line/triangle hit is sound and complete | Moeller-Trumbore algebra over R. |
| C46 | Sampling depth, area, volume bounds | acos domain and sign argument over R. |
| C47 | Sampling never exposes uninitialised data | Any K: garbage parameter is universally quantified on both sides. |
| C48 | Mesh geometric outputs are bounded | Loop invariant on accumulators. |
| C49 | Mesh geometric result does not depend on triangle order | False (finding: break on degenerate). Conditional version proved. |
| C50 | Reported contact comes with finite data | False in the 0/0 case if reachable; conditional version. |
| C51 | Plane/plane intersection | Vector algebra. |
| C52 | Line/disk intersection | Quadratic formula. |
| C53 | Segment/disk clipping | Quadratic formula; short segments refuted. |
| C54 | Triangle/rib intersection is in both | Composition. |
| C55 | Shell averages stay within the rib values | Weighted mean lemmas by induction. |
| C56 | Total contact area | False (finding): refuted + true characterisation. |
| C57 | Total contact depth without volume | False (finding): refuted + true characterisation. |
| C58 | Scalar, indexed and vector accessors agree | Any K, induction. |
| C59 | Contact frame is orthonormal | Vector algebra. |
| C60 | Contact storage is valid | False under ISO semantics (finding): refuted; raw-storage semantics used for the rest. |
| C61 | Contact storage has room for every rib count | False (finding): any size > 200. |
| C62 | Frame and angle vectors are sized by the accessor | False (finding): refuted; true when presized. |
| C63 | S-function bus | Any K. |
| C64 | S-function fallback | Any K. |
| C65 | S-function matrices round-trip | Any K. |
| C66 | The mesh and the flat geometric methods agree | Polar description of a chord; mesh loop on a single triangle containing the chord; refuted for chords behind the hub. |
| C67 | Attitude angles name the attitude | Specify turns about the axes; show that the three angles rebuild any rotation matrix (rows and columns of a rotation, polar angles), gimbal lock included; apply to the pose of the shell and to the contact frame of C59. Refuted in binary64: the yaw jumps to pi for a wheel with a heading of 35 degrees. |
| C68 | Relative angles of a rib | Value of the three angles in terms of the attitude; they name the attitude exactly when the rib is not inclined; refuted by the outer rib of a two-rib wheel. |
| C69 | A setup of valid input returns | Flat and sampling: totality of the rib loop, any arithmetic. Geometric: the only throwing branch needs the cut line to meet three edges; impossible when no vertex is within the tolerance of a rib plane (signs of the vertex heights). Refuted in binary64 by a triangle with a vertex 2^-27 from the rib plane. |
| C70 | A box built from two corners is the box they span | Any totally ordered number type; membership in the swapped box, axis by axis. |
| C71 | The intersection of two boxes is their common part | Any totally ordered number type; membership in the max/min box. |
| C72 | Distances from a point to a box | Exact arithmetic: the scaled formula equals the gap along each axis; nearest and farthest points exhibited. Refuted for flat boxes (NaN). |
| C73 | Lengths, areas and volumes | Exact arithmetic; triangle area against base times height. Refuted for disks: area and perimeter are exchanged. |
| C76 | Three planes meet in their unique common point | Cramer's rule as a vector identity. |
| C77 | The chord of a ball | Points of a unit-speed line in the ball form the interval of the two roots. Refuted for segments: the direction is not normalised. |
| C78 | The section of a ball by a plane | Pythagoras on the foot of the center, any normal including zero. |
| C79 | Where a ray or a segment crosses a plane | The abscissa on the plane is unique. Refuted for a ray that starts on the plane. |
| C80 | Where a line, a ray or a segment pierces a triangle or a disk | Unique solution of the barycentric system (as C45), then the abscissa test; plane crossing followed by the radius test. |
| C81 | Crossing points of lines, rays and segments | The two abscissas give the feet of the common perpendicular, hence the closest points; uniqueness of the crossing. Refuted for skew pairs, which are reported to meet. |
| C74 | Moving an entity moves its points | Exact arithmetic; image of the point set under the map, kind by kind. Any affine map for straight entities, rigid maps for all; refuted for a stretched plane. |
| C75 | The clamp box of an entity | Exact arithmetic; extreme points on each axis for the lower bound, convexity for the upper one; unbounded entities leave every box. Refuted for disks, whose box is the one of the ball. |
| C82 | Parallel, orthogonal, collinear and coplanar | Exact arithmetic; table of the gaps by carrier (direction or normal), one lemma per predicate over all pairs of kinds. Refuted for line/plane orthogonality and for two rays. |
| C83 | The run-time typed Intersection | Any arithmetic; case analysis over the 81 pairs and the branches of the dispatcher. Refuted: (plane, disk) dereferences a null pointer, (plane, triangle) depends on the order. |
| C84 | Intersection of entities on one line | Exact arithmetic; abscissas along the line turn entities into intervals, then case analysis of the end points. Refuted for opposite rays that do not meet (throws) and for rays at an angle. |
| C85 | Collections of entities | Any arithmetic for the loops (induction on the list), each isX, containX, areX and countX modelled by itself; candidates from C12 applied to the clamp boxes. Refuted for remove, areSegment, containDegenerated and countNonClampable. |
| C86 | Reversing, normalising and swapping keep the points | Exact arithmetic; change of parameter. |
| C87 | The contact data move with the world | Exact arithmetic; every intermediate quantity of the enveloping methods is shown to be invariant or carried by the motion, by induction on the list of triangles for the loops. Needs vertices off the rib plane for the geometric method on triangles; refuted otherwise in binary64. |
| C88 | Turning the wheel about its axle | Exact arithmetic; the posed disk does not change, the angles shift by the turn as long as they stay below the axle. Refuted for sampling (binary64) and for triangles seen behind the axle (exact arithmetic). |
| C89 | MATLAB handles are checked | MEX gateway model: heap of tagged objects, command tables; case analysis over every command. A deleted handle is undefined behaviour (refuted). |
| C90 | A MATLAB call touches one object only | Every command is shown to have one of five effects; induction over sessions. Errors of five commands keep partial effects (refuted by resize). |
| C91 | Creation and deletion from MATLAB | Computation of the commands on arbitrary worlds; distinct addresses by induction over sessions. |
| C92 | A MEX file stays locked while its objects live | Invariants over sessions: the total is exact; for three files the lock never falls below the population. Refuted per file. |
| C93 | Poses and setups pass through the gateway unchanged | Encoding and decoding of column-major arrays; the gateway equation for setups. `rotation` returns the transpose (refuted). |
| C94 | Arrays of the wrong shape are rejected | Exact behaviour for every shape; refuted. |
| C95 | Integer arguments mean their value | All classes for values that fit; truncation and int8 refuted. |
| C96 | Every command can succeed | Impossibility for all arguments of three commands and four missing ones (refuted); a binary64 session in which each other command returns. |
| C97 | Every object created from MATLAB can be freed | Case analysis and induction; leaks refuted. |
| C98 | Flat grounds reached from MATLAB are valid | Invariant over sessions in exact arithmetic; refuted by two setters. |
| C99 | MATLAB queries count from one and return the C++ data | Computation on arbitrary worlds; range and id refuted. |
| C100 | The sampling method averages the highest ground under four probes | Exact arithmetic; evaluation of the method, soundness and completeness of the line and triangle intersection, and the maximum over the list of hits by induction. |
| C101 | The box of the nearest object is always a candidate | Exact arithmetic; induction on the built tree: every node covers its leaves, so pruning loses nothing; refuted for boxes without thickness and for the empty tree. |
| C102 | The mesh geometric area and volume are those of the ground profile | Exact arithmetic; the hidden area is an antiderivative difference of the polar sector area, computed in closed form and equal to the summed term; splitting by additivity of angles and cross products; point by the angle bisector theorem; the dependence of point and depth on the triangulation by a concrete profile with real bounds. |
| C103 | Box queries and all intersections of a collection | Exact arithmetic for the boxes, via the tree theorems and the clamping box of each entity; any arithmetic for the pairs, by induction on the rows; refuted for no boxes (undefined) and for collections with a ball or `none`, whose pair with itself has no answer. |
| C104 | Collections that share entities and trees | A second model of collections with addresses (AcmeHeap.v): loops over pointers proved equal to the value model when the result is another collection; how often an object moves counted by induction; refuted by sharing through candidates, copies, results into an argument and stale trees. |
| C105 | A MATLAB script never passes a stale or foreign handle | A model of the methods as programs of gateway calls with an execution relation (Matlab.v), any allocator; a typing of programs by the handles they hold, sound by induction on executions, then induction on scripts. |
| C106 | The methods of the MATLAB classes answer what the library computes | Any arithmetic; Hoare-style rules for programs, the loops by an invariant on the rib or triangle number; single-call methods by a table of names and numbers of arguments; refuted for the methods that never succeed and for the number of a triangle. |
| C107 | What a MATLAB script leaves behind | Any arithmetic; the number of live objects counted by induction on the script; refuted by the handles that the methods take over and drop. |
| C108 | Constructing a mesh from MATLAB | Any arithmetic; evaluation of constructor and gateway for symbolic paths and arrays; refuted by the argument counts that load nothing and by the missing check of the pose. |
| C109 | The remaining MATLAB commands do what the C++ functions do | Any arithmetic; evaluation of each command on a live handle. |
| C110 | isApprox is an approximate equality | Exact arithmetic; squared comparison turned into norms; refuted for the place of the objects, for a null tolerance, for the tolerance of grounds and for rib numbers. |
| C111 | isDegenerated finds the entities without extent | Exact arithmetic, case analysis on the kind; refuted for triangles without area and for boxes. |
| C112 | isInside recognises the points of an entity | Exact arithmetic; the sine form of the cone around a line, the ellipsoid around a segment, uniqueness of barycentric coordinates; refuted for lines, rays, segments and flat triangles. |
| C113 | Angles between vectors, distances from a plane, moved boxes | Exact arithmetic, Cauchy-Schwarz; doubles for the refutation. |
| C114 | A simulation with the S-function blocks | Any arithmetic; memory with the objects allocated and the three globals, induction on the calls; outputs compared with a new process; refuted for two blocks, objects never freed. |
| C115 | What is drawn of a wheel | Exact arithmetic; the plotting methods as programs of gateway calls, grids compared with the surface swept by the profile; refuted for the place of single bands. |
| C116 | Printed reports | Any arithmetic; a report as the list of the things written, read back by label; induction on triangles, ribs and the tree; refuted for the title of a plane and the names of the relative angles. |
| C117 | Ground triangles changed in place | Any arithmetic for indices, what is kept and mesh queries; exact arithmetic for the points covered, the normal and the box, by induction on the movements; refuted for wrong indices, the normal of turned triangles, and queries at the new place. |
| C118 | Contact with flat ground at neighbouring places | Exact arithmetic; closed forms of the depth of both methods from the height of the rib center; Lipschitz bounds for depth, volume and the square of the area; sum over the ribs; the same between any two rigid poses, from the norm of the cross product of ground normal and axle; refuted for the geometric method at the onset of contact and for the sampling method at a quarter turn. |
| C119 | Flat ground modelled by triangles, sampling method | Exact arithmetic; the sampling line of every probe gives the same point and friction on both grounds, hence the same answer; for the wheel through the exact mesh query (C10) and, on level ground, a bound that puts the points under the probes of a rib in contact in the bounding box. |
| C120 | Contact data in double precision | IEEE binary64 (`SpecFloat`) linked to rounding of the reals by Flocq; monotonicity of rounding for the arguments of the root and the arccosine, bounds against overflow, closure of doubles under the operations. Refuted without the proviso on the depth by a wheel 5900 km from the origin. |
| C121 | Friction in double precision | IEEE binary64; adding a number four times and dividing by four is exact (round to even, three cases of the exponent), hence by monotonicity of rounding the mean stays in range. Refuted for the geometric method. |
| C122 | Places of the ribs in double precision | IEEE binary64; induction on the number of ribs over the error of the running sum `ribY += ribW`, with the error of the width and of the first place; the bound keeps every rib within the half width, so that the width check of the profile cannot fail. |
| C123 | The profile of the wheel in double precision | IEEE binary64; monotonicity of rounding through quotient, power, complement, power and product; the powers of the C library by stated hypotheses; for the wheel together with C122. |
| C124 | Averages over the ribs in double precision | IEEE binary64; error analysis of the running sums by induction (sums of doubles have no absolute error), bounds of the quotient; exact bounds refuted by a wheel of three ribs. |
| C125 | Area and volume in double precision | IEEE binary64; error analysis of the two formulas against the exact slice, with the modulus of continuity of arccosine and root; negative volume refuted by a rib one unit in the last place deep. |
| C126 | What the whole wheel reports on flat ground | exact reals; the results of all ribs characterised by method, means of equal values over the ribs with volume; the unweighted mean below EPSILON computed, and refuted by a wheel of three ribs. |
| C127 | Intersections with points, with a containing plane, and of a disk with what runs in its plane | exact reals, through the run-time typed call; membership from C112, coplanarity from C82, the roots of the chord clipped to the ray; refuted at a discriminant equal to minus the tolerance. |
| C128 | What the whole wheel reports on a mesh | exact reals; every rib either fair or (geometric only) undefined, through the query and the candidates; weighted means stay in range; the undefined value absorbs the sum; refuted in binary64 by a step edge under one of two ribs. |
| C129 | The contact point of the wheel is in the wheel | exact reals; every rib point is within the radius of the rib center, the weighted and the plain mean lie in every half-space that holds the points, and the capsule around the axle is an intersection of half-spaces; refuted in binary64 by the step edge of C128. |
| C130 | The normal the wheel reports with the sampling method | exact reals; the vertical component of the cross product of the probe differences is a positive multiple of that of the wheel axis, so every rib normal is on that side, and the mean of such normals cannot vanish. |
| C131 | Contact frames with the sampling method | exact reals; a positive depth keeps the rib normal off the axle; for the wheel, a normal with vertical part (C130) is not along a level axle; frame and angles from C59 and C67. |
| C132 | The volume the wheel hides is at most half its cylinder | exact reals; a reported depth is at most the radius, the segment volume grows with the depth up to half the rib, the ribs share the width and none is larger than the shell. |
| C133 | Pressing the wheel into flat ground | exact reals; the exact contact conditions and depths of C39 and C118, which depend on the height of the rib center and on the attitude only; the segment volume grows with the depth; sum over the ribs. |
| C134 | A wheel clear of the ground reports no contact | exact reals; a cut of a low triangle with a high rib can only be a single point, which the geometric loop drops; the mean of four low probes is too far from the center; exact contact conditions on flat ground. |
| C135 | The contact point lies in the hull of the ground | exact reals; each probe hit is in a triangle up to the margin, the rib point is their mean (C100), the shell point is a volume-weighted mean of the points of ribs in contact (C55). |
| C136 | The contact point of the geometric method lies on the ground it was cut from | exact reals; the reported radius is the length of the bisector of the angle between the ends of the cut, so the point divides the cut in the ratio of the radii; the rib reports a volume-weighted mean of such points. |
| C137 | The depth is at most how far the wheel reaches below the ground | exact reals; the depth is the radius less the distance of the contact point from the center, and the point is no higher than the ground (C135, C136); with the sampling method the radius is also scaled down. |


## How to read the development

| layer | files |
|---|---|
| outcomes, numbers | `Base` (Ret / Throw / UB, no default values), `Num` (operations of `double`, no laws; `OrdNum` adds the order laws), `ER` (exact reals with infinities and NaN), `F64` (IEEE binary64 from `Coq.Floats.SpecFloat`) |
| model of the code | `Vec` (Eigen), `Aabb`, `Tree`, `Geom` (acme), `Ground`, `Shape`, `Rib`, `Str`, `Mesh`, `Shell`, `Sfun` and the `Acme*` files: every definition cites the lines it models |
| specifications | `Spec*.v`: small, independent of the model's helpers (geometry in plain real numbers, printers for the file formats, histories of operations, ...) |
| proofs | `Proof*.v`, `Sample*.v` (witnesses) |
| theorems | `Properties*.v`: one `Theorem Cxx_...` per claim, closed by a lemma, with `Print Assumptions` below and an `Example` showing that the hypotheses are met |

A theorem `Cxx_..._refuted` exhibits a state or input for which the English property is false of the code; the other theorems of the same number then state the strongest variant that holds. Each such property is `partial` in `MANIFEST.json`.

Four kinds of quantification over numbers are used, and each theorem says which one in its type:

* `forall {K} {NK : Num K}`: any arithmetic whatsoever, so IEEE doubles with rounding, infinities and NaN;
* `forall {K} {NK : Num K} {OK : OrdNum K}`: any arithmetic whose comparisons behave as those of `double` (`F64_Ord` proves this of binary64);
* `er` (exact arithmetic): the reals, plus infinities and NaN with the IEEE rules for invalid operations. These theorems do not cover rounding error. Where the code compares with a tolerance, the tolerance is in the statement.
* `f64` with `F64_Num lm` for all `lm` (C120 to C125): IEEE binary64 with the rounding of every operation, in the order the code writes them and without fused multiply-add; the functions of the C library are arbitrary, or restricted by a stated hypothesis. The proofs use Flocq to link `SpecFloat` to rounding of the reals; it adds no axiom.

## Trusted base

1. Coq 8.16.1's kernel (and `coqchk`). No kernel check is switched off; there are no user axioms, `Admitted`, functors or plugins.
2. The axioms listed at the end of this file. They are those of the standard library's real numbers: `ClassicalDedekindReals.sig_forall_dec`, `ClassicalDedekindReals.sig_not_dec`, `FunctionalExtensionality.functional_extensionality_dep` and `Classical_Prop.classic` (used by parts of `Reals` and by its lemmas on derivatives and `asin`/`acos`). `coqchk` additionally lists the (opaque, sealed) symbols of `Coq.Reals.Rdefinitions` and `Coq.ssr.ssrunder.Under_rel`, which come with the standard library's module sealing.
3. The faithfulness of the model, that is, of the definitions in the model files, to the C++ text. Decisions that matter:
   * **Eigen** is not part of the repository. `Vec.v` states what is assumed of it: component-wise operations, `dot` summed left to right, `normalized()` dividing only when the squared norm is positive, `isApprox` as the relative test, `AngleAxis` as Rodrigues' matrix, `eulerAngles(2,0,1)` as in Eigen 3.3/3.4.
   * **`std::stod` and the file system** are arbitrary functions (`Variable`s of closed sections, hence universally quantified). `std::stoi`, `getline`, `substr`, `find_first_of` are modelled on byte strings.
   * **libm** (`sin`, `cos`, `atan`, `acos`, `atan2`, `pow`) is an arbitrary parameter for `K`-generic theorems, the exact functions for `er`, and a parameter of the `F64` instance.
   * **Shared pointers** held by a `collection` are modelled twice: `AcmeEntity` takes the entities by value, `AcmeHeap` by address, and C104 relates the two. Shared pointers to constant triangles are modelled by the triangles; none is null where the code dereferences it, except the tree boxes, which are modelled as options with a dereference of null being `UB`.
   * **`m_out`** is a `std::vector` that is reserved (200) but never resized. Under ISO C++ every access is undefined (C60). To say anything further the model treats the reserved storage as 200 memory cells that can be written and read; a read of a cell never written, or an access outside the 200 cells, is `UB`.
   * **Uninitialised temporaries** of the sampling method are universally quantified parameters (`garbage4`).
   * Messages printed to `std::cout` and exception texts are not modelled.

## What is modelled

* `src/flat.cc`, `src/triangleground.cc`, `src/shape.cc`, `src/rib.cc`, `src/mesh.cc`, `src/shell.cc`: all functions that have a definition, except (outside `Print.v`) `print`/`operator<<`-style output and trivial accessors to a field.
* `sfun/src_sfun/enve_sfun_interface.cc`: output function with the three global pointers as arguments (`Sfun.v`); initialisation, output and termination as calls on a memory with the objects allocated and the three globals (`SfunRun.v`).
* `toolbox/src/AABBtree.cc`, `aabb.cc`: tree construction, intersection, collision, distance queries, box operations.
* the acme geometry that enve calls: `line`, `plane`, `segment`, `triangle`, `disk` predicates, parallelism and the intersection functions on the path of the enveloping methods; and the further acme functions listed in the `Acme*` files.
* `toolbox/src_mex/mex_shell.cc`, `mex_flat.cc`, `mex_mesh.cc`, `mex_triangleground.cc` and the helpers of `mex_utils.hh` they use (`Mex.v`): every command, argument check, handle conversion, lock and allocation.
* `toolbox/lib/enve_shell.m`, `enve_flat.m`, `enve_mesh.m`, `enve_triangleground.m` (`Matlab.v`): constructors, destructors and methods as programs of gateway calls. ACME's classes are not part of the repository: `copyByHandle` is assumed to copy the object behind the handle and to leave the handle.
* `toolbox/lib/enve_shell.m:422-747` (`Plot.v`): the plotting methods and `meshShell`, as programs that return what is drawn. MATLAB's colon operator and `cylinder` are written after their documentation.
* `print` of shape, flat, triangleground, mesh, shell and AABBtree, and the operators `<<` of the ACME entities (`Print.v`): the list of texts, integers, numbers, vectors and matrices written. Digits, brackets and line ends are left out; the stream accepts everything; the file of `mesh::print` can be opened.
* `triangle::vertex`, `operator[]`, `edge`, `segment::vertex`, `triangleground::vertex`, and the changes of a ground triangle through its base class (`Edit.v`); `aabb::clear`.

## What is not modelled

* Functions that are declared in headers but have no definition (for instance `shell::isDegenerated`-style declarations, the `contactPoint` overloads without body): there is no code to model.
* Tests, timing programs, MATLAB scripts, CMake/Rake files.
* Of the MATLAB classes: colors, markers, axis limits and the scale of arrows (a figure is the list of curves, grids, arrows and disks it is given), and the methods inherited from `acme_entity`.
* MATLAB itself: the gateway model takes arrays as lists with dimensions, errors as caught by the script, and an allocator that returns any unused address.
* Rounding error in the geometric theorems (see above); performance claims; floating-point exceptions; thread safety (there is no concurrency in the repository).
* acme: input and output of entities, null entity pointers passed to the run-time-typed overloads, `collection` accessors by pointer type.

## Findings

Each is a theorem about the model; the witness is in the theorem or in the example next to it.

1. `m_out` is never resized: all contact data are accessed outside the vector (C60_contact_storage_refuted); a shell of more than 200 ribs writes past the reserved storage (C61_room_refuted, C61_every_large_shell_overflows).
2. `contactArea(total)` sums the frictions (C56_total_area_refuted); `contactDepth(total)` without volume returns volume/size (C57_total_depth_refuted).
3. `setup(flat)` returns the flag of the last rib only (C34_flat_setup_refuted).
4. An unknown method name is accepted when the wheel is out of range of the mesh (C37_method_refuted).
5. `transform` ignores the result of `checkTransformation`, which itself only looks at the determinant (C28_*_refuted). `rotate` with a non-unit axis breaks rigidity (C27_axis_must_be_unit). The overload on a 4x4 matrix accepts a matrix that is not affine at all (C28_last_row_refuted).
6. `rib::copy` keeps the old `y`, `triangleground::copy` keeps the old id (C20_*_refuted).
7. The bounding box of the shell is a cube of half side `Rx` and does not contain wide shells (C29_box_refuted).
8. `mesh::copy`, `mesh::clear` and default construction leave the search tree stale or empty; querying an empty tree dereferences a null pointer (C15_*). A vector of triangles whose ids are not positions answers with the wrong triangles or reads out of bounds (C16_vector_ids_refuted).
9. A second `load` on the same mesh always fails, and a failed load keeps the triangles read so far (C07_*).
10. A node index beyond the nodes read so far is undefined behaviour in both loaders (C05_*), and in OBJ files also the least int as an index, from which one is subtracted (C05_least_index_refuted); nothing else is (C05_undefined_exactly, C05_obj_undefined_exactly); blank lines inside a section make loading fail (C06_*).
11. A NaN in the first triangle hides every triangle (C14_*).
12. Mesh geometric method: a degenerate cut ends the scan, so the result depends on the order of the triangles (C49_order_refuted); contact can be reported with NaN data (C50_finite_refuted); a chord behind the hub gives depth = radius and a wrong normal (C66_wall_behind_refuted).
13. `Intersection(segment, disk)` loses or invents contacts for short segments (C53_clip_refuted); `Intersection(line, disk)` is inaccurate near tangency (C52_chord_refuted); `Intersection(plane, plane)` rejects transversal planes whose angle is small and uses un-normalised offsets (C51_plane_plane_refuted).
14. Lowering a wheel whose hub is already below the ground decreases the reported depth (C41_lowering_refuted).
15. `surfaceAngle` at the very edge of a full ellipse is a vertical tangent (C23_angle_refuted).
16. The vector accessors of frames and angles do not resize the caller's vector (C62_short_vectors_refuted).
17. `relativeAngles` decides between yaw 0 and yaw pi by the sign of a scalar product that is zero up to rounding: for 12 of the 360 whole-degree headings on level ground the angles jump by pi (C67_rounded_yaw_refuted shows 35 degrees).
18. `relativeAngles(i)` subtracts the inclination of the rib from the first angle, which in the Z-X-Y sequence is the yaw, not the camber (C68_rib_attitude_refuted).
19. `Intersection(line, triangle, segment)` throws when the line meets three edges, which happens when it passes within the tolerance of a vertex. `shell::setup` with the geometric method then throws on a valid mesh and pose (C69_geometric_refuted).
20. `aabb::centerDistance` is NaN for a flat box and a point off its plane (C72_flat_box_nan).
21. `disk::area` returns the perimeter and `disk::perimeter` the area (C73_disk_exchanged).
22. `Intersection(segment, ball)` solves the equation of a unit direction with the un-normalised segment vector: the result can leave the ball (C77_segment_ball_refuted).
23. `Intersection(ray, plane)` and `Intersection(ray, disk)` miss a ray whose start is on the plane (C79_ray_from_plane_refuted).
24. Two skew lines are reported to meet in the point of the first one closest to the second (C81_skew_refuted).
25. `plane::transform` and `disk::transform` map the normal like a direction: wrong for a map that is not rigid (C74_transform_refuted).
26. `disk::clamp` returns the box of the ball (C75_disk_refuted).
27. `IsOrthogonal(line, plane)` is `IsParallel(line, plane)` (C82_line_plane_refuted). `IsCollinear(ray, ray)` compares a direction with itself (C82_rays_refuted); as a consequence `Intersection(entity, entity)` of two rays from one point at an acute angle returns a whole ray (C84_oblique_rays_refuted).
28. `Intersection(entity, entity)` of a plane and a disk not in one plane dereferences a null pointer (C83_plane_disk_refuted); of a triangle and a plane containing it, it returns the triangle in one argument order and nothing in the other (C83_plane_triangle_refuted); of two opposite rays of one line that do not meet, it throws (C84_apart_rays_refuted).
29. The `remove...` functions of `collection` call `std::remove_if` without `erase`: the size does not change and the tail is unspecified; if it holds null pointers every later count is undefined (C85_remove_refuted, C85_remove_then_count_refuted).
30. In the three-hit case `Intersection(line, triangle, segment)` merges points with Eigen's `isApprox`, which is relative to the distance from the world origin: the same wheel and mesh throw near the origin and return when moved away from it (C87_mesh_geometric_refuted).
31. The contact data depend on the rotation of the wheel about its axle. The geometric method on triangles uses `atan2` angles in the wheel frame and mistakes a chord behind the axle for its complement: depth 1 instead of 2/5 (C88_mesh_geometric_refuted). The sampling method places its four points in the wheel frame and loses the ground when the wheel has turned by a quarter (C88_sampling_refuted). Without contact the reported point turns with the wheel.
32. A deleted MATLAB handle is dereferenced (C89_stale_rejected_refuted): the signature check reads the freed object.
33. `resize` from MATLAB with a negative number raises an error after it has emptied the wheel (C90_resize_empties).
34. Locks: a triangle taken from a mesh locks `mex_mesh` but is deleted by `mex_triangleground`, which can reach lock count 0 while its own objects live (C92_triangle_locked_refuted); points returned by `mex_shell` keep it locked for ever (C92_unlocked_refuted).
35. `rotation` returns the transpose of the rotation (C93_rotation_refuted).
36. The shape checks use `||` where `&&` is meant: a scalar passed to `translate` is read out of bounds, a 3x2 array is cut, a 4x1 array passed to `transform` is read out of bounds (C94_*_refuted).
37. Sizes are converted through `int64_t` to `int` by truncation, and `int8` values are read as `uint8` (C95_truncation, C95_int8).
38. `checkTransformation` requires two arguments and reads the third; `load` requires one output and assigns none; `new` of a flat ground without arguments always throws (C96_*_refuted). `enve_shell.surfaceWidthBound` and `enve_triangleground.setVertex1..3` call commands that do not exist (C96_missing_refuted).
39. `getTrianglegroundVertices` leaks a triangle and a failing mesh `new` leaks the mesh (C97_all_freed_refuted); points and planes are never freed by the gateway (C97_points_stay).
40. `setNormal` and `setFriction` store what they get: a normal that is not a unit vector or points down, a negative friction (C98_setters_refuted).
41. MATLAB indices are not checked: out of range they read outside the vectors (C99_rib_range_refuted, C99_triangle_range_refuted). The triangle returned by `getTriangleground` has id 0 (C99_triangle_id_refuted).
42. The distance from a point to a box without thickness is NaN, so `selectMinimumDistance` and `selectLessThanDistance` never return the box of a level triangle, and a farther box is preferred (C101_flat_never, C101_nearest_refuted). On an empty tree they dereference a null pointer (C101_empty_refuted).
43. The contact point and the depth of the geometric method on a mesh depend on how the same profile is cut in triangles: each triangle contributes the point where the bisector of its angle at the hub meets the cut, weighted by hidden volume, and that mean is not additive. One triangle over x in [0, 4/5] gives x = 3/10; the same road in two triangles split at 3/10 gives x < 3/10 and a larger depth (C102_triangulation_refuted). Area, volume and friction do not depend on it.
44. `collection::areSegment` tests `isBall`: a collection of segments answers false and a collection of balls answers true (C85_are_refuted).
45. `collection::containDegenerated` has the loop of `areDegenerated`: it is true of an empty collection and false as soon as one entity is sound (C85_contain_refuted).
46. `collection::countNonClampable` negates its test, so it counts the entities that are not non-clampable; the entry "non-clampable" of `count` inherits it (C85_count_refuted). A `none` entity answers false to both isClampable and isNonClampable.
47. `collection::intersection(entities, tolerance)` starts its inner loop at `j = i`, so it intersects every entity with itself; for a ball or a `none` that has no answer, so the call throws for every collection that contains one (C103_intersections_refuted). An empty list of boxes dereferences a null pointer (C103_no_boxes_refuted).
48. The candidates of two collections are the same objects as in the collections, an object once per pair. Translating the candidates moves the original entities, and an entity of k pairs k times (C104_move_refuted).
49. Copies of a collection share entities and search tree. Building a copy after adding to it makes queries of the original read out of bounds (C104_copy_refuted); moving a copy moves the original (C104_copy). A moved-from collection has a null tree and can no longer be built (C104_moved_from).
50. The result of `intersection` is cleared before the arguments are read. With the queried collection for the result the call is undefined (C104_query_this, C104_intersections_this); with the other one it can answer a wrong pair (C104_query_other_refuted).
51. Moving a collection keeps its tree: until it is built again queries answer for the old places (C104_stale_refuted).
52. Methods of the MATLAB classes that can never succeed: `surfaceWidthBound` and `setVertex1` to `setVertex3` (C106_dead_refuted), `copy` of a flat ground (C106_flat_copy_refuted), and `enve_flat()` (C106_flat_new_refuted).
53. Every point, plane or triangle that a MATLAB method asks the gateway for stays allocated, and its gateway locked, when all objects are deleted (C107_all_freed_refuted). `mesh.plot` loses one object per triangle (C106_mesh).
54. `enve_mesh('x.obj')`, and a pose that is not 4x4 given with an OBJ file, silently give an empty mesh (C108_loaded_refuted, C108_obj_pose). With an RDF file a 4x1 pose reads outside the array (C108_pose_checked_refuted).
55. `isApprox` of points and vectors is relative to their distance from the world origin: the origin agrees with no other point (C110_origin_refuted) and moving both objects changes the answer (C110_moved_refuted). `flat::isApprox` and `triangleground::isApprox` use their tolerance for the friction only (C110_ground_tolerance_refuted). With a null tolerance a disk or a ball differs from itself (C110_zero_tolerance_refuted). `rib::isApprox` compares rib numbers with the tolerance for lengths (C110_rib_number_refuted).
56. `triangle::isDegenerated` does not find a triangle without area (C111_flat_triangle_refuted). `aabb::isDegenerated` does not find a box without volume, a small box at the origin or an empty box (C111_box_refuted).
57. `line::isInside` and `ray::isInside` test an angle: they accept points at any distance from the line (C112_line_refuted). `segment::isInside` accepts points farther than the tolerance, up to the square root of the tolerance times the length (C112_segment_refuted, C112_segment_near). A triangle without area refuses its own corners (C112_flat_triangle_refuted).
58. `Angle` calls `acos` with an argument above 1 for (1,1,1) and itself in double precision (C113_angle_rounded_refuted).
59. All blocks of a simulation share three global pointers: the last initialisation gives every block its wheel (C114_two_blocks_refuted). Nothing is freed at termination, a failed initialisation leaves its mesh and plane behind, and an output before any initialisation dereferences a null pointer (C114_never_freed, C114_failed_start_leaks, C114_not_started).
60. `plotEnve` and `shellEnve` put a minus before the axial position of a rib: the surface drawn for a rib is at its mirror image, that is, at the rib counted from the other end (C115_band_of_rib_refuted). The figure as a whole is right, because the ribs are symmetric and drawn in one color (C115_bands). Drawing ribs leaves one ACME point per rib behind.
61. `shell::print` writes the relative angles after `[Γ ß α]'`, that is camber, rotation, yaw, but in the order yaw, camber, rotation: a wheel that rolled a quarter turn without yaw is reported with a yaw of a quarter turn (C116_angle_names_refuted). The same report names the three absolute angles correctly (C116_shell). `flat::print` announces a plane with the title of a triangle, `TRINGLEGROUND DATA` (C116_title_refuted). `shell::print` on a shell that was never set up reads unwritten results (C116_shell_returns).
62. `triangleground` derives publicly from `triangle` and hides only the writable `vertex`/`operator[]`: `translate`, `transform`, `swap` and assignments through the base class change the vertices and leave the normal and the bounding box as they were (C117_kept). After shifts the box is right only when the shifts cancel out (C117_shifted); a turned triangle can keep a normal that lies in its own plane (C117_turned_refuted); a mesh made of a moved triangle does not find it where it is, and returns it where it was (C117_query, C117_query_refuted). `triangle::vertex(i)` checks `i < 3` only, `segment::vertex` nothing, and `triangleground::vertex` passes its `size_t` as an `int`: negative indices are undefined behaviour, `edge(-1)` is edge 2, `2^32` is vertex 0 (C117_vertex_refuted).
63. The geometric method on flat ground reports no contact while the squared half length of the chord is at most the tolerance: when contact begins, the area of a rib of radius 1 and width 1/2 jumps from 0 to 2^-13 and the depth from 0 to at least half the tolerance (C118_continuous_refuted). Otherwise depth and volume follow the pose with a fixed factor, the area with the square root (C118_geometric_depth, C118_area_volume). The sampling method has no jump there (C118_sampling_depth, C118_sampling_turned); it loses the contact when the third diagonal entry of the attitude is 0, at a quarter turn about the axle, however close the other pose (C118_turned_refuted); and on an inclined wheel its depth is the geometric depth times the cosine of the inclination of the axle (C118_methods).
64. In double precision the geometric method on flat ground is unreliable far from the origin of the coordinates: the line common to the ground and the rib is given by its point nearest to the origin, and the discriminant is the difference of two squares of the distance to that point. At about 5900 km (coordinates of the size of map coordinates) a wheel of radius 0.25 with 10 mm of air under it is reported in contact, with depth -10 mm and with area and volume NaN; the sampling method is right there (C120_far_refuted).
65. In double precision the geometric method on triangles can report 0.7499999999999999 on ground whose friction is 0.75 everywhere, because the friction is the quotient of two rounded sums (C121_geometric_refuted). The sampling method is exact (C121_uniform, C121_flat).
66. In double precision the overload of `shell::contactFriction` for the whole wheel can exceed the friction of every rib: three ribs that all report 7/8 give a wheel that reports more than 7/8, because a rounded sum of products is divided by a rounded sum (C124_friction_refuted); the error is bounded (C124_friction).
67. In double precision the volume of a contact can be negative: the two terms of its formula cancel, and near the surface the rounding of `(radius - depth)/radius` outweighs their difference. A rib of radius 3/4 and width 1/8, whose centre is one unit in the last place below 3/4 above level ground, is reported by the sampling method in contact with positive depth and negative volume, with a correctly rounded arccosine there (C125_positive_refuted). The volume is never below zero by more than 2^-22 of radius squared times width (C125_sampling_flat, C125_sampling_triangles, C125_geometric_flat). So the hypothesis of C124 that volumes are not negative is not met by every contact.
68. When the total contact volume is below `EPSILON_ENVE` the friction, point and normal of the wheel are plain means over all ribs, also those in the air, whose friction is 0. A wheel of three ribs of which one touches ground of friction 3/4 reports friction 1/4 (C126_light_refuted); in general the friction of the ground times the share of touching ribs (C126_light). From `EPSILON_ENVE` on it reports exactly the friction of the ground (C126_ground), so the friction of that wheel jumps as it is lowered.
69. `Intersection(ray, disk)` in one plane takes the square root of a negative discriminant when the discriminant is exactly minus the tolerance: both tests before it (`< -tolerance`, `abs < tolerance`) let the value pass. `std::max(0, NaN)` is 0, and the call reports a segment reduced to the origin of the ray, however far from the disk (C127_disk_refuted).
70. With the geometric method one rib whose friction is undefined makes the friction of the whole wheel undefined, because `0 * NaN` is NaN in the weighted mean: a vertical step edge below the axle under one rib hides the level ground under all others (C128_spreads, C128_refuted). The contact point of the wheel is lost the same way (C129_refuted).
71. With the geometric method a mesh that holds the same triangle several times has it counted each time: the volume and the area add up over the copies, so the reported volume of a fixed rib has no bound (C132_geometric_refuted). The sampling method is not affected (C132_mesh).

Correction: up to commit 1163962 C85 had one theorem, C85_queries, about the loops for an arbitrary test, and the model's comment said that every countX, containX and areX was an instance. The methods of findings 44 to 46 are not, so that theorem claimed more than the code does. AcmeCollection.v now models each method by itself, C85_is, C85_contain, C85_are and C85_count replace C85_queries, and the three exceptions are refuted. After this the other families that the model treats as uniform were compared with the source body by body: IsCollinear, IsCoplanar, IsParallel and IsOrthogonal with their dispatchers, the dispatcher of Intersection, the shell queries, and the MATLAB commands with their argument counts. No further difference was found. The vector overloads of IsParallel and IsOrthogonal, so far covered by a remark only, are now in AcmeVector.v (C82_vector).

Correction: up to commit 6da0ee7 the model read `rotation` of a shell as the linear part of its pose, and C93_transform_read_back said that `transformation` answers the array given with its last row replaced by 0 0 0 1. Eigen's `Transform::rotation` in `Affine` mode takes the rotation factor out of a singular value decomposition, so the first holds only of rotations; the last row is stored as given, so the second holds only if it is 0 0 0 1. Eigen's factor is now an arbitrary function of the environment of a call (`e_rot`), C93_transform_read_back states the answer of `rotation` in terms of it and that of `transformation` under the condition on the last row, and C93_rotation_refuted holds for every factorisation that returns a quarter turn unchanged. C28 got the 4x4 overload of checkTransformation (C28_matrix_test, C28_matrix_of_pose, C28_last_row_refuted). A last row other than 0 0 0 1 is otherwise outside the model; no setup and no contact query reads it.

## Axioms of each theorem (output of `Print Assumptions`)

- **Closed under the global context** (no axiom): C01_rdf_round_trip, C01_rdf_any_file, C01_example, C02_obj_round_trip, C02_example, C03_success_well_formed, C03_success_meaning, C03_malformed_rejected, C03_example, C04_loaded_friction, C04_bad_element_rejected, C04_bad_face_rejected, C04_example_rejected, C04_example_nan, C04_index_reading, C04_example_reading, C05_index_safety_refuted, C05_undefined_exactly, C05_example_reader, C06_blank_lines_refuted, C06_blank_line_in_section_throws, C06_rdf_ignored_lines, C06_obj_ignored_lines, C06_example, C07_all_or_nothing_refuted, C07_second_load_never_succeeds, C07_failed_load_keeps_answers, C07_example, C08_ids_are_positions, C08_example, C09_tree_build, C09_example, C10_query_exact, C10_example, C11_query_order_independent, C12_pairs_exact, C13_collision_exact, C11_C12_C13_example, C14_nan_hides_refuted, C14_nan_first_hides_everything, C14_example, C15_history_refuted, C15_load_histories, C15_empty_tree_undefined, C15_example, C16_vector_ids_refuted, C16_vector_with_position_ids, C16_example, C17_triangle_bbox, C17_example, C20_rib_copy_refuted, C20_triangle_copy_refuted, C20_copies, C26_resize_zero_throws, C26_resize_history_independent, C26_resize_defined, C26_example, C32_mesh_setup_history_independent, C32_flat_setup_history_independent, C32_example, C33_mesh_setup_reports, C33_example, C34_flat_setup_refuted, C34_flat_setup_reports_last, C34_flat_setup_stores_every_rib, C34_example, C35_no_contact_mesh, C35_no_contact_flat, C35_no_contact_setup, C35_example, C36_method_validated, C36_flat_setup_validates, C36_mesh_setup_in_range_validates, C36_example, C37_method_refuted, C42_geometric_friction, C42_example, C44_highest_hit, C44_fails_iff_no_hit, C44_example, C47_no_uninitialised_data, C56_total_area_refuted, C56_total_area_is_friction_sum, C57_total_depth_refuted, C57_total_depth_value, C56_C57_example, C58_accessors_agree, C58_vectors_defined, C58_example, C60_contact_storage_refuted, C60_example, C61_every_large_shell_overflows, C61_room_up_to_200, C61_data_after_setup, C61_example, C62_short_vectors_refuted, C62_frames_filled, C62_angles_filled, C62_example, C63_bus, C63_example, C64_fallback, C64_flat_selected, C64_invalid_inputs_throw, C64_example, C65_arrays_are_column_major, C65_decode_inverts, C65_encode_inverts, C65_example, C19_throws_exactly, C54_in_disk_refuted, C67_rounded_yaw_refuted, C67_rounded_example, C69_flat_returns, C69_sampling_returns, C69_geometric_refuted, C70_box_from_corners, C70_order_check, C71_common_part, C75_flag, C82_line_plane, C83_undefined, C83_order, C83_answers, C83_no_answer, C83_exceptions, C83_dimension, C83_coplanar_triangles, C83_coplanar_unsupported, C85_map, C85_null_entity, C85_remove, C85_remove_refuted, C85_boxes, C85_boxes_exist, C87_mesh_geometric_refuted, C88_sampling_refuted, C89_wrong_class_rejected, C89_not_a_handle_rejected, C89_wrong_second_rejected, C89_stale_rejected_refuted, C89_example, C89_example_second, C90_isolation, C90_reading, C90_errors, C90_resize_empties, C90_all_errors_refuted, C90_example, C91_new_shell, C91_new_shell_refused, C91_new_flat, C91_new_triangle, C91_delete, C91_round_trip, C91_distinct, C91_example, C91_example_delete, C92_total, C92_locked, C92_triangle_locked_refuted, C92_unlocked_refuted, C92_example, C93_transform_read_back, C93_rotation_refuted, C93_translate, C93_setup_flat, C93_setup_mesh, C93_example, C94_translate_shapes, C94_transform_shapes, C94_vectors_checked_refuted, C94_poses_checked_refuted, C94_example, C95_resize, C95_size, C95_truncation, C95_int8, C95_all_sizes_refuted, C95_example, C96_unknown, C96_check_refuted, C96_load_refuted, C96_load_loads, C96_missing_refuted, C96_others_succeed, C96_example, C97_points_stay, C97_new_objects_returned, C97_losing_calls, C97_all_freed_refuted, C97_example, C98_setters_refuted, C99_ribs, C99_contacts, C99_averages, C99_triangles, C99_vertices, C99_triangle_fields, C99_rib_range_refuted, C99_triangle_range_refuted, C99_triangle_id_refuted, C99_example, C101_empty_refuted, C85_is, C85_contain, C85_contain_refuted, C85_are, C85_are_refuted, C85_count, C85_count_refuted, C85_odd_methods, C85_counts, C85_number_unique, C85_remove_kind, C85_without_unique, C85_remove_then_count_refuted, C85_remove_example, C82_vector_as_line, C103_no_boxes_refuted, C103_intersections, C103_intersections_return, C103_intersections_refuted, C104_move_counts, C104_move_once, C104_move_frame, C104_move_refuted, C104_move_null, C104_query, C104_query_boxes, C104_query_this, C104_query_other_refuted, C104_intersections, C104_intersections_this, C104_copy, C104_copy_frame, C104_edit, C104_copy_refuted, C104_moved_from, C104_stale_refuted, lesson_runs, C105_sound_calls, C105_objects_live, C105_distinct, C105_delete, C105_session, C105_total, C105_example, C105_example_crash, C106_shell, C106_per_rib, C106_transform, C106_setup_flat, C106_setup_mesh, C106_setup_wrong, C106_flat, C106_triangle, C106_mesh, C106_dead_refuted, C106_flat_copy_refuted, C106_triangle_number_refuted, C106_forwarded, C106_arity, C106_type, C106_flat_shows, C106_triangle_shows, C106_example, C106_forwarded_example, C107_accounting, C107_all_freed_refuted, C107_clean, C107_example, C108_refused, C108_rdf, C108_rdf_pose, C108_obj, C108_obj_pose, C108_loaded_refuted, C108_pose_checked_refuted, C108_example, C95_not_scalar, C96_load_others, C109_shape, C109_surface, C109_rotate, C109_flat_setters, C109_flat_getters, C109_mesh, C109_triangle, C109_example, C109_live, C113_angle_rounded_refuted, C115_frames, C114_started, C114_started_rdf, C114_failed_start, C114_session, C114_start_anywhere, C114_output, C114_not_started, C114_in_force, C114_never_freed, C114_failed_start_leaks, C114_two_blocks_refuted, C114_example, C114_example_rdf, C116_shape, C116_flat, C116_triangle, C116_title_refuted, C116_mesh, C116_mesh_file, C116_tree, C116_entities, C116_shell_returns, C116_shell, C116_example, C117_vertex, C117_segment, C117_edge, C117_ground_vertex, C117_vertex_refuted, C117_swap, C117_kept, C117_defined, C117_query, C117_query_refuted, C05_obj_undefined_exactly, C05_least_index_refuted, C120_far_refuted, C120_example, C121_geometric_refuted, C121_example, C123_even, C123_example, C124_friction_refuted, C128_refuted, C129_refuted.
- **sig_forall_dec, sig_not_dec, classic, functional_extensionality_dep**: C17_triangle_in_bbox, C17_inner_example, C18_normal, C18_vertex_order, C18_example, C19_stored, C19_example, C20_flat_copy, C20_example, C45_hit_sound, C45_hit_complete, C51_plane_plane, C51_parallel, C51_plane_plane_refuted, C51_example, C52_chord, C52_miss, C52_tangent, C52_chord_refuted, C53_part_of_segment, C53_clip, C53_tangent, C53_clip_refuted, C54_triangle_disk, C54_example, C38_contact_point, C38_example, C39_detection, C39_no_false_contact, C40_area, C40_volume, C40_reported_flat, C40_reported_sampling, C40_example, C41_lowering, C41_lowering_refuted, C42_sampling_friction, C43_sampling_flat, C43_normal_side, C43_example, C46_bounds, C46_example, C21_throws_exactly, C21_on_hyperellipse, C21_even, C21_non_increasing, C22_derivative, C22_odd, C22_near_zero, C23_angle, C23_angle_refuted, C24_slices, C24_resize, C25_never_throws, C25_radii, C25_ribs_good, C25_example, C61_room_refuted, C27_moves_keep_rigid, C27_example, C27_axis_must_be_unit, C28_determinant_only_refuted, C28_transform_unchecked_refuted, C28_volume_test, C28_rigid_accepted, C28_mirror_rejected, C28_matrix_test, C28_matrix_of_pose, C28_last_row_refuted, C29_inside_the_sphere, C29_outside_the_sphere, C29_round_shapes, C29_box_refuted, C29_example, C30_candidates_exact, C30_example, C31_nothing_lost, C31_nothing_lost_round, C31_example, C35_no_contact_totals, C48_mesh_output_bounds, C48_example, C49_order_refuted, C49_order_clean_cuts, C49_example, C50_finite_refuted, C50_finite_or_no_volume, C50_example, C55_volume_is_sum, C55_friction_between, C55_depth_between, C55_point_in_hull, C55_normal_side, C55_flat_setup_data, C55_example, C59_rib_frame, C59_total_frame, C59_example, C66_mesh_matches_flat, C66_mesh_equals_flat, C66_example, C66_wall_behind_refuted, C67_euler_angles, C67_relative_angles, C67_example, C68_rib_angles, C68_rib_attitude, C68_rib_attitude_refuted, C68_example, C54_plane_cut_exact, C54_disk_cut_exact, C69_geometric_returns, C69_example, C70_example, C71_example, C72_distance_to_box, C72_farthest_distance, C72_distance_refuted, C72_flat_box_nan, C73_disk_refuted, C73_disk_exchanged, C73_ball, C73_segment, C73_triangle_perimeter, C73_triangle_area, C76_three_planes, C76_example, C77_line_ball, C77_ray_ball, C77_segment_ball_refuted, C77_unit_segment_ball, C77_example, C78_plane_ball, C79_ray_plane, C79_ray_from_plane_refuted, C79_plane_segment, C79_example, C80_ray_triangle, C80_segment_triangle, C80_line_disk, C80_ray_disk, C80_segment_disk, C80_example, C81_line_line, C81_ray_ray, C81_line_ray, C81_ray_segment, C81_segment_segment, C81_skew_refuted, C81_example, C74_transform_rigid, C74_transform_straight, C74_translate, C74_rotate, C74_transform_refuted, C75_encloses, C75_smallest, C75_disk, C75_unbounded, C75_disk_refuted, C75_example, C82_parallel, C82_orthogonal, C82_line_plane_refuted, C82_collinear, C82_on_one_line, C82_rays, C82_rays_refuted, C82_coplanar, C82_in_one_plane, C83_plane_disk_refuted, C83_plane_triangle_refuted, C84_common_points, C84_apart_rays, C84_apart_rays_refuted, C84_oblique_rays_refuted, C85_candidates, C85_candidates_complete, C86_same_points, C86_ray_halves, C87_flat_geometric, C87_flat_sampling, C87_mesh_sampling, C87_mesh_geometric, C87_setup, C87_example, C87_setup_example, C88_flat_geometric, C88_mesh_geometric, C88_example, C88_mesh_geometric_refuted, C96_flat_new_refuted, C98_flats_sound, C98_example, C100_contact, C100_no_contact, C100_friction_range, C100_example, C100_example_none, C101_candidates, C101_nearest_kept, C101_within_distance, C101_least_farthest, C101_example, C101_flat_never, C101_nearest_refuted, C102_profile_area_volume, C102_split_invariant, C102_point_in_hull, C102_depth_below_flat, C102_example, C102_triangulation_refuted, C85_kinds_example, C82_vector, C82_vector_example, C103_boxes, C103_one_box, C103_boxes_complete, C103_example, C104_candidates, C104_example, C106_flat_new_refuted, C110_points, C110_entities, C110_grounds, C110_origin_refuted, C110_moved_refuted, C110_zero_tolerance_refuted, C110_ground_tolerance_refuted, C110_rib_number_refuted, C110_example, C111_thin, C111_one_point, C111_flat_triangle_refuted, C111_box, C111_box_refuted, C111_example, C112_exact, C112_complete, C112_near, C112_segment_near, C112_segment_refuted, C112_line_refuted, C112_flat_triangle_refuted, C112_example, C113_angle, C113_angle_null, C113_plane, C113_box, C115_mesh, C115_mesh_on_tread, C115_shape, C115_shape_on_tread, C115_shape_static, C115_profile, C115_ribs, C115_ribs_static, C115_bands, C115_bands_static, C115_band_of_rib_refuted, C115_example, C116_angle_names_refuted, C117_points, C117_shifted, C117_shifted_back, C117_turned_refuted, C117_clear, C117_example, C118_geometric, C118_sampling, C118_sampling_depth, C118_geometric_depth, C118_area_volume, C118_total_volume, C118_total_example, C118_continuous_refuted, C118_methods, C118_example, C118_sampling_turned, C118_geometric_turned, C118_total_turned, C118_turned_refuted, C118_turned_example, C119_contact, C119_same, C119_cut, C119_wheel_contact, C119_wheel_same, C119_level, C119_example, C119_example_contact, C120_sampling_flat, C120_sampling_triangles, C120_geometric_flat, C121_triangles, C121_uniform, C121_flat, C122_places, C122_construction, C122_example, C123_range, C123_falls, C123_ribs, C124_friction, C124_depth, C124_volume, C124_example, C125_sampling_flat, C125_sampling_triangles, C125_geometric_flat, C125_positive_refuted, C125_example, C126_ground, C126_light, C126_light_refuted, C126_example, C127_point, C127_point_on, C127_two_points, C127_in_plane, C127_triangle_in_plane, C127_same_plane, C127_disk, C127_disk_tangent, C127_disk_refuted, C128_range, C128_sampling, C128_spreads, C128_example, C129_flat, C129_mesh, C129_sampling, C129_example, C130_mesh, C130_flat, C130_example, C131_mesh, C131_flat, C131_rib, C131_example, C131_example_rib, C132_flat, C132_mesh, C132_geometric_refuted, C132_example, C133_rib, C133_wheel, C133_example, C134_mesh, C134_flat, C134_example, C135_rib, C135_wheel, C135_level, C135_example, C136_cut, C136_rib, C136_wheel, C136_example, C136_wheel_example, C136_beside_axle, C137_rib, C137_wheel, C137_sampling_rib, C137_sampling_wheel, C137_rib_example, C137_wheel_example, C137_sampling_example.
- **sig_forall_dec, functional_extensionality_dep**: C45_example, C41_example, C21_example, C22_example, C23_example, C24_tiling, C24_example, C28_example, C72_example, C74_example, C86_example, C113_example.
- **sig_forall_dec, sig_not_dec, functional_extensionality_dep**: C52_example, C53_example, C39_chord, C39_example, C54_exact_example, C73_example, C78_example, C82_example, C84_example, C85_example, C110_reflexive_symmetric, C127_example.
- **sig_forall_dec**: C83_example.

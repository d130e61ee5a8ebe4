{"id": "C01", "title": "Direction reversal and axis/direction names", "statement": "Reversing a direction twice gives it back, the reverse of a real direction is a different real direction with the opposite name, NONE is its own reverse; the name of every valid axis/direction converts back to the same axis/direction, every string that is not one of the listed names is reported as invalid (axis) or NONE (direction), and no two axes or directions share a name.", "quantifier": "every axis and direction value, every string", "why_tests_cant": "The set of strings is infinite; tests try a few names and never the rejection of all others.", "anchors": ["src/zeo_misc.c: zAxisStr, zAxisFromStr, zDirStr, zDirFromStr, zDirRev"]}
{"id": "C02", "title": "Normalisation of 2D/3D vectors", "statement": "Normalising a vector that has a component of at least the tolerance returns its length, and the output is the unit vector with the same direction (length times output equals input); for a vector whose components are all under the tolerance an error value (-1 in 2D, 0 in 3D) is returned and the output is not touched. Division by a scalar fails exactly when the scalar is zero.", "quantifier": "every 2D and 3D real vector, every previous content of the output", "why_tests_cant": "Continuum of inputs; the tolerance boundary and the 'output untouched' part are never sampled.", "anchors": ["src/zeo_vec2d.c: zVec2DNormalize, zVec2DDiv", "src/zeo_vec3d.c: zVec3DNormalize, zVec3DDiv"]}
{"id": "C03", "title": "Projection and orthogonalisation", "statement": "Projecting v on n gives the unique multiple of n whose difference from v is orthogonal to n; orthogonalising v against n gives v minus that projection; both refuse a negligible n. The 3D orthonormal-vector and orthonormal-space builders return, for every vector of length at least three times the tolerance, mutually orthogonal unit vectors forming a right-handed triple whose first element is the direction of the input.", "quantifier": "every pair of 3D vectors; every vector of length at least three times the tolerance", "why_tests_cant": "The branch choice depends on tolerances on individual components; random tests never reach vectors near the coordinate axes.", "anchors": ["src/zeo_vec3d.c: zVec3DProj, zVec3DOrthogonalize, zVec3DOrthonormal, zVec3DOrthoSpace, zVec3DOrthonormalSpace"]}
{"id": "C04", "title": "Rotation of a vector by an angle-axis vector", "statement": "Rotating any vector by an angle-axis vector preserves inner products, lengths and outer products, keeps the axis fixed, and equals multiplication by the attitude matrix built from the same angle-axis vector; rotating by angles a then b about the same axis equals rotating by a+b.", "quantifier": "every vector, every angle-axis vector (including those under tolerance)", "why_tests_cant": "Algebraic identity over a continuum, with a tolerance switch.", "anchors": ["src/zeo_vec3d.c: zVec3DRot", "src/zeo_mat3d.c: zMat3DFromAA"]}
{"id": "C05", "title": "Matrix inverse, adjugate and linear solve in 2D and 3D", "statement": "For every 3x3 matrix whose determinant is at least the tolerance times the cube of its largest entry (and for every other one for which a result is computed at all) the computed inverse multiplies with the matrix to the identity on both sides, the solve functions return the unique solution of the linear system, and the adjugate times the matrix is the determinant times identity for every matrix. 2D inverse and solve succeed exactly when the determinant is not under tolerance and are then exact.", "quantifier": "every 2x2 and 3x3 real matrix and right-hand side", "why_tests_cant": "Continuum of inputs, pivoting-free formula must hold for all sparsity patterns.", "anchors": ["src/zeo_mat3d.c: zMat3DInv, _zMat3DInv, zMat3DAdj, zMulInvMat3DVec3D, zMulInvMat3DMat3D, zMulAdjMat3DVec3D", "src/zeo_mat2d.c: zMat2DInv, zMulInvMat2DVec2D, zMulInvMat2DMat2D"]}
{"id": "C06", "title": "Singular 3x3 matrices are reported", "statement": "A user relies on the 3x3 inverse and solve functions signalling a singular matrix (as the 2D ones do). The header promises a null pointer in that case. The code detects singularity internally but discards that status: for every matrix whose determinant is zero the functions return a non-error pointer, and the output holds stale or non-finite content.", "quantifier": "every 3x3 matrix with zero determinant", "why_tests_cant": "Tests only invert random matrices, which are non-singular with probability one.", "anchors": ["src/zeo_mat3d.c: zMat3DInv, zMulInvMat3DVec3D, zMulInvMat3DMat3D, zMat3DBalancing"]}
{"id": "C07", "title": "Z-Y-X Euler angles round trip", "statement": "For every proper rotation matrix, converting to ZYX Euler angles and back reproduces the matrix exactly, gimbal lock included; converting angles with pitch strictly within +-90 degrees to a matrix and back reproduces them modulo a full turn (exactly when they lie in the principal range); every Euler triple yields a proper rotation equal to Rz(a)Ry(b)Rx(c).", "quantifier": "every rotation matrix, every triple of angles", "why_tests_cant": "Gimbal-lock configurations have measure zero and are missed by random tests.", "anchors": ["src/zeo_mat3d.c: zMat3DFromZYX, zMat3DToZYX"]}
{"id": "C08", "title": "Z-Y-Z Euler angles round trip", "statement": "For every proper rotation matrix, converting to ZYZ Euler angles and back reproduces the matrix exactly, including the singular middle angles 0 and pi; every triple yields the proper rotation Rz(a)Ry(b)Rz(c).", "quantifier": "every rotation matrix, every triple of angles", "why_tests_cant": "Singular configurations have measure zero.", "anchors": ["src/zeo_mat3d.c: zMat3DFromZYZ, zMat3DToZYZ"]}
{"id": "C09", "title": "Angle-axis round trip", "statement": "Every angle-axis vector yields a proper rotation with that axis fixed and trace 1+2cos(angle) (the identity for vectors under tolerance). Conversion of a rotation matrix to angle-axis and back reproduces the matrix for the identity, for every half turn and for every rotation whose skew part is at least four tolerances long; conversion of an angle-axis vector of length strictly between zero and pi (and not within tolerance of either) to a matrix and back reproduces the vector, and for length pi the vector or its opposite.", "quantifier": "every angle-axis vector, every rotation matrix", "why_tests_cant": "Half-turn rotations and near-identity rotations take separate branches that random sampling misses.", "anchors": ["src/zeo_mat3d.c: zMat3DFromAA, zMat3DToAA"]}
{"id": "C10", "title": "Unit quaternion (Euler parameter) round trip and homomorphism", "statement": "Every unit quaternion yields a proper rotation; q and -q yield the same rotation; rotating a vector by q equals multiplying by its matrix; every rotation matrix converts to a unit quaternion that converts back to exactly the same matrix (the extraction never fails on a rotation); the quaternion product corresponds to the matrix product in the documented order.", "quantifier": "every unit quaternion, every rotation matrix, every vector", "why_tests_cant": "Four extraction branches selected by the largest diagonal combination; continuum of inputs.", "anchors": ["src/zeo_ep.c: zEPCreateAA, zMat3DFromEP, zMat3DToEP, zEPRotVec3D, zEPMul, zEPCascade, zEP2AA, zAA2EP"]}
{"id": "C11", "title": "Spherical linear interpolation of attitudes", "statement": "Interpolating two unit quaternions always yields a unit quaternion, ratio 0 gives the first and ratio 1 the second attitude, and the rotation angle from the first grows in proportion to the ratio.", "quantifier": "every pair of unit quaternions and every ratio", "why_tests_cant": "Continuum; the nearly-equal and antipodal branches are missed by samples.", "anchors": ["src/zeo_ep.c: zEPInterDiv, zMat3DInterDiv"]}
{"id": "C12", "title": "Angular velocity conversions", "statement": "The conversion from ZYX/ZYZ Euler-angle rates to angular velocity is the true angular velocity of the moving attitude (time derivative of the matrix equals cross product matrix times the matrix); the reverse conversion inverts it away from the singularity and leaves the output untouched at the singularity. The same holds for quaternion rates.", "quantifier": "every Euler triple, every rate vector, every unit quaternion", "why_tests_cant": "Derivative property over a continuum.", "anchors": ["src/zeo_vec3d.c: zZYXVelToAngVel, zAngVelToZYXVel, zZYZVelToAngVel, zAngVelToZYZVel", "src/zeo_ep.c: zEPVel2AngVel, zAngVel2EPVel"]}
{"id": "C13", "title": "Incremental roll/pitch/yaw rotation", "statement": "Rotating a matrix about x, y or z by an angle multiplies it from the left by the corresponding elementary rotation, keeps rotations proper rotations, and works in place; rotating forth and back restores the matrix.", "quantifier": "every matrix, every angle, every sequence of rotations, in place or not", "why_tests_cant": "Aliasing between source and destination plus continuum of inputs.", "anchors": ["src/zeo_mat3d.c: zMat3DRotRPYSC, zMat3DRotRoll, zMat3DRotPitch, zMat3DRotYaw"]}
{"id": "C14", "title": "Frame algebra", "statement": "Coordinate frames with rotation attitude form a group acting on points: transforming by the inverse frame undoes the transform, cascading two frames composes their transforms, cascading is associative with the identity frame neutral, the relative frame of two frames cascades back to the second. Distances between points are preserved.", "quantifier": "every frame with a proper rotation attitude, every point", "why_tests_cant": "Continuum of inputs and arbitrary compositions.", "anchors": ["include/zeo/zeo_frame3d.h: zXform3D, zXform3DInv, zFrame3DInv, zFrame3DCascade, zFrame3DXform"]}
{"id": "C15", "title": "Denavit-Hartenberg frames and attitude parameterised frames", "statement": "The frame built from DH parameters equals the cascade of its four elementary screw motions, and has a proper rotation; frames built from position and Euler angles or angle-axis convert back to the same frame.", "quantifier": "every DH parameter quadruple, every frame", "why_tests_cant": "Continuum of inputs.", "anchors": ["src/zeo_frame3d.c: zFrame3DFromDH, zFrame3DFromPosZYX, zFrame3DFromPosZYZ, zFrame3DFromPosAA, zVec6DToFrame3DZYX, zFrame3DToVec6DZYX"]}
{"id": "C16", "title": "Spatial (6D) vector transforms preserve power", "statement": "Shifting a twist and a wrench to the same new reference point preserves their inner product; shifts compose additively and invert; the 6D frame transforms of a wrench and of a twist are dual (power is frame independent) and inverses of each other's inverse transform.", "quantifier": "every 6D vector, point and frame", "why_tests_cant": "Continuum of inputs; sign conventions.", "anchors": ["src/zeo_vec6d.c: zVec6DLinShift, zVec6DAngShift", "src/zeo_frame3d.c: zXform6DLin, zXform6DAng, zXform6DLinInv"]}
{"id": "C17", "title": "6x6 block matrices", "statement": "Block-stored 6x6 matrices implement ordinary 6x6 matrix algebra: element access by row and column, product with a vector and its transpose, product of matrices, dyad and transpose agree with the entrywise definitions.", "quantifier": "every 6x6 matrix, every 6D vector, all index pairs", "why_tests_cant": "The block layout (la/al order) is easy to swap; tests use the same accessors on both sides.", "anchors": ["src/zeo_mat6d.c: zMulMat6DVec6D, zMulMat6DTVec6D, zMulMat6DMat6D, zMat6DT, zMat6DRow, zMat6DCol", "include/zeo/zeo_mat6d.h: zMat6DDyad"]}
{"id": "C18", "title": "2D frames and coordinates agree", "statement": "A 2D coordinate (position, angle) and the 2D frame built from it transform every point identically, their inverses invert, cascades correspond, and the angle of a rotation matrix recovers it.", "quantifier": "every 2D coordinate and frame, every point", "why_tests_cant": "Continuum of inputs.", "anchors": ["src/zeo_coord2d.c", "src/zeo_frame2d.c", "src/zeo_mat2d.c", "include/zeo/zeo_mat2d.h"]}
{"id": "C19", "title": "In-place (aliased) calls", "statement": "A caller may pass the same object as input and output of the arithmetic functions. For the 3D vector/matrix products written through a temporary the aliased call gives the same result as the non-aliased one for all inputs; for the 2D rotation, 2D matrix-vector product, 2D transpose/inverse, interior division, quaternion vector rotation and in-place 2D cascade it does not, and the exact set of inputs on which in-place use is wrong is characterised.", "quantifier": "every input value and every aliasing pattern of input and output objects", "why_tests_cant": "Tests always pass distinct objects.", "anchors": ["src/zeo_vec2d.c: zVec2DRot, zVec2DRot90CW, zVec2DInterDiv", "src/zeo_mat2d.c: zMulMat2DVec2D, zMat2DT, zMat2DInv", "src/zeo_vec3d.c: zVec3DOuterProd", "src/zeo_mat3d.c: zMulMat3DVec3D, zMat3DT, zMat3DInv", "src/zeo_ep.c: zEPRotVec3D", "src/zeo_coord2d.c: zCoord2DCascadeDRC"]}
{"id": "C20", "title": "Symmetric eigen-decomposition by Jacobi rotations", "statement": "Each Jacobi sweep step keeps the factorisation: eigenvector matrix stays a proper rotation and M = V D V^T holds with D symmetric; the off-diagonal square sum never increases. When the procedure ends by its convergence test, the reported values are eigenvalues up to the tolerance. The iteration bound that is meant to stop it is inoperative, yet the procedure always ends: the off-diagonal square sum shrinks by a third per iteration.", "quantifier": "every symmetric 3x3 matrix, every number of sweeps", "why_tests_cant": "The invariant must hold at every iteration for a continuum of matrices; the loop bound bug cannot be observed on converging inputs.", "anchors": ["src/zeo_mat3d.c: zMat3DSymEigRot, zMat3DSymEig"]}
{"id": "C21", "title": "Closest point on a line segment", "statement": "For any two distinct end points and any query point (2D and 3D), the returned point lies on the segment, no point of the segment is nearer, and the returned value is the distance to it. For equal end points a zero is divided by zero.", "quantifier": "every segment, every query point, every competitor point on the segment", "why_tests_cant": "Optimality quantifies over all points of the segment.", "anchors": ["include/zeo/zeo_elemxd.h: zEdgeXDClosestFromOrigin, zEdgeXDClosest"]}
{"id": "C22", "title": "Closest point on a triangle", "statement": "For any triangle whose normal is not negligible (3D) or whose area is not zero (2D) and any query point, the returned point lies in the triangle, no point of the triangle is nearer, and the returned distance is the distance to it. In 3D a triangle with a negligible normal yields the nearest point of its three sides, and three equal vertices leave the result unwritten.", "quantifier": "every non-degenerate triangle, every query point, every competitor point of the triangle", "why_tests_cant": "Optimality quantifies over all points of the triangle; region boundaries have measure zero.", "anchors": ["src/zeo_elem2d.c: zTri2DClosestFromOrigin, zTri2DClosest", "src/zeo_elem3d.c: zTri3DClosestFromOrigin, zTri3DClosest"]}
{"id": "C23", "title": "Closest point on a tetrahedron", "statement": "For any tetrahedron of either orientation with non-zero volume and no negligible face normal and any query point, the returned point lies in the tetrahedron and no point of it is nearer; inside points return themselves.", "quantifier": "every non-degenerate tetrahedron, query point and competitor", "why_tests_cant": "Optimality quantifies over all points; only facets seen from the point are searched, which needs a geometric argument.", "anchors": ["src/zeo_elem3d.c: zTetra3DClosestFromOrigin, zTetra3DClosest"]}
{"id": "C24", "title": "Common perpendicular of two lines", "statement": "For two non-parallel lines the two returned feet lie on the respective lines, their connection is orthogonal to both, and the distance is the minimum over all pairs of points of the two lines; for exactly parallel lines the returned distance is still the line distance. Lines so close to parallel that the squared sine of their angle is below the tolerance are treated as parallel, and then crossing lines can be reported at distance one.", "quantifier": "every pair of lines, every competitor pair of points", "why_tests_cant": "Minimum over a two-parameter family.", "anchors": ["src/zeo_elem3d.c: zLine3DCommonPerpEnd, zLine3DCommonPerp, zLine3DDist"]}
{"id": "C25", "title": "Planes: signed distance, projection, intersection line", "statement": "The projection of a point on a plane lies on the plane and is the nearest plane point, its distance is the absolute signed distance; every point of the intersection line computed for two non-parallel planes lies on both planes and every common point lies on the line. The line is handed back with its origin pointing to a local variable of the library function, so a caller cannot use it. The on-plane test compares an angle with the margin, not the documented distance.", "quantifier": "every plane (unit normal), point, pair of non-parallel planes", "why_tests_cant": "Continuum of inputs; set equality.", "anchors": ["src/zeo_elem3d.c: zPlane3DDistFromPoint, zPlane3DProjPoint, zPlane3DCreate", "src/zeo_col.c: zIntersectPlane3D"]}
{"id": "C26", "title": "Triangle centres", "statement": "For every non-degenerate triangle the barycentre is the mean of vertices, the circumcentre is equidistant from the three vertices, the incentre is equidistant from the three edges, and the orthocentre lies on all three altitudes.", "quantifier": "every non-degenerate triangle in 2D and 3D", "why_tests_cant": "Continuum of inputs.", "anchors": ["include/zeo/zeo_elemxd.h: zTriXDBarycenter, zTriXDCircumcenter, zTriXDIncenter, zTriXDOrthocenter"]}
{"id": "C27", "title": "Axis-aligned boxes", "statement": "A box created from two arbitrary corners contains exactly the points between the sorted corners; merging two boxes gives the smallest box containing both; enlarging adds exactly one point; the overlap test is true exactly when the boxes have a common point that stays common under every small enough shift (for boxes with extent: a common interior point), so boxes that only touch are reported apart; the computed intersection is exactly the set intersection; the closest point of a box is in the box and nearest to the query.", "quantifier": "every pair of corners, every pair of boxes, every point", "why_tests_cant": "Set equalities over a continuum including touching boxes.", "anchors": ["src/zeo_elem3d_box.c: zAABox3DCreate, zAABox3DMerge, zAABox3DExpand, zAABox3DClosest", "src/zeo_elem2d_box.c", "src/zeo_col_box.c: zColChkAABox3D, zIntersectAABox3D"]}
{"id": "C28", "title": "Axis-aligned bounding box of point data", "statement": "The bounding box of any non-empty point set contains every point and is contained in every box that contains every point; the six recorded extreme points are members of the set that attain the six bounds; the transformed variant gives the box of the transformed points.", "quantifier": "every non-empty finite point sequence of any length, every frame", "why_tests_cant": "Induction over arbitrarily long sequences.", "anchors": ["src/zeo_bv3d_aabb.c: zVec3DDataAABB, zVec3DDataAABBXform", "src/zeo_bv2d_aabb.c: zVec2DDataAABB"]}
{"id": "C29", "title": "Oriented boxes", "statement": "For boxes with orthonormal axes the closest point is in the box and nearest to the query, the inside test with a margin is true exactly for the interior of the box grown by the margin, transforming a box by a frame transforms its point set, mirroring mirrors its point set, and the axis-aligned conversion is the smallest axis-aligned box containing the box.", "quantifier": "every oriented box, frame, point", "why_tests_cant": "Set equalities over a continuum.", "anchors": ["src/zeo_elem3d_box.c: zBox3DClosest, zBox3DPointIsInside, zBox3DXform, zBox3DMirror, zBox3DToAABox3D"]}
{"id": "C30", "title": "Separating-axis collision test of oriented boxes", "statement": "Two oriented boxes that share a point interior to one of them are never reported as separate, for any relative orientation including parallel axes; two boxes reported separate really have a separating direction; and for solid boxes whose pairs of axes are exactly parallel or clearly not parallel, a collision is reported exactly when the two interiors meet. Boxes that only touch are reported separate.", "quantifier": "every pair of oriented boxes with orthonormal axes", "why_tests_cant": "A missed or sign-swapped axis only shows for special relative poses.", "anchors": ["src/zeo_col_box.c: _zColChkBox3DAlong, _zColChkBox3DPerp, zColChkBox3D"]}
{"id": "C31", "title": "Sphere against boxes", "statement": "A sphere is reported as colliding with an axis-aligned or oriented box exactly when some point of the box is strictly closer to its centre than the radius.", "quantifier": "every sphere and box", "why_tests_cant": "Existential over all box points; touching cases have measure zero.", "anchors": ["src/zeo_col_box.c: zColChkSphereAABox3D, zColChkSphereBox3D"]}
{"id": "C32", "title": "Spheres: closest point and circumscribed construction", "statement": "The closest point of a solid sphere is the query point itself inside and the radial projection outside, and is nearest among all sphere points; spheres made from two, three or four points pass through these points, the two-point one being the smallest that contains both and the three-point one the smallest through all three. Moving or mirroring a sphere moves or mirrors exactly the set of its points. Disks behave alike.", "quantifier": "every sphere, query point; every two, three (non-collinear) or four (non-coplanar) points", "why_tests_cant": "Continuum of inputs; optimality.", "anchors": ["src/zeo_elem3d_sphere.c: zSphere3DClosest, zSphere3DFrom2, zSphere3DFrom3, zSphere3DFrom4", "src/zeo_elem2d_disk.c"]}
{"id": "C33", "title": "Cylinders: closest point and inside test", "statement": "The closest point of a solid cylinder lies in the cylinder and is nearest to the query point among all points of the cylinder; the returned distance is the true distance, except above the second cap within the radius, where its sign is flipped (exactly there). The inside test with a margin is exactly the test of the three enlarged bounds; moving or mirroring a cylinder moves or mirrors the set of its points.", "quantifier": "every cylinder with positive height, every query point, every competitor", "why_tests_cant": "Region structure and optimality over a continuum.", "anchors": ["src/zeo_shape3d_cyl.c: zCyl3DClosest, zCyl3DDistFromPoint, zCyl3DPointIsInside"]}
{"id": "C34", "title": "Capsules: closest point and inside test", "statement": "The closest point of a capsule lies in the capsule and is nearest to the query point; between the end planes a point is reported inside exactly when it is nearer to the capsule than the margin. Beyond the end planes the sign of the distance is flipped: points arbitrarily far away are reported inside, and with zero margin no point of the capsule at all is reported inside.", "quantifier": "every capsule, every query point", "why_tests_cant": "Region structure over a continuum; tests sample only near the shape.", "anchors": ["src/zeo_shape3d_capsule.c: zCapsule3DClosest, zCapsule3DDistFromPoint, zCapsule3DPointIsInside"]}
{"id": "C35", "title": "Cones: inside test and closest point", "statement": "A point is reported inside a cone exactly when it lies between base plane and apex and within the linearly shrinking radius, each bound enlarged by the margin (measured perpendicular to the slope); the closest point lies in the cone and is nearest to the query.", "quantifier": "every cone of height at least twice the tolerance, every query point that is on the axis or off it by more than the tolerance", "why_tests_cant": "Region structure and optimality over a continuum.", "anchors": ["src/zeo_shape3d_cone.c: zCone3DClosest, zCone3DPointIsInside"]}
{"id": "C36", "title": "Signed triangle-cone volume, inertia and polyhedron mass properties", "statement": "For every closed consistently oriented triangle mesh, the volume is invariant under rigid motion of the mesh, changes sign when faces are flipped, is kept by mirroring, scales with the cube of the scale factor, and the barycentre and the barycentric inertia move with the mesh; the same volume is obtained from any reference point.", "quantifier": "every closed mesh of any size, every frame, every reference point", "why_tests_cant": "Induction over arbitrary meshes; requires edge cancellation.", "anchors": ["src/zeo_ph3d.c: zPH3DVolume, zPH3DBarycenter, zPH3DFlip, zPH3DXform, zPH3DScale", "src/zeo_elem3d.c: zTri3DConeVolume, zTri3DConeBarycenter"]}
{"id": "C37", "title": "Cone inertia of a triangle", "statement": "The inertia tensor computed for the tetrahedron spanned by a triangle and the origin equals the integral of the point inertia over it; barycentre and volume likewise.", "quantifier": "every triangle in 3D, every density", "why_tests_cant": "Integral identity over a continuum.", "anchors": ["src/zeo_elem3d.c: zTri3DConeInertia, zTri3DConeVolume, zTri3DConeBarycenter"]}
{"id": "C38", "title": "Parallel-axis consistency of inertia", "statement": "Moving the reference point of the inertia tensor of any mass distribution follows the parallel axis theorem: the inertia about the origin equals the barycentric inertia plus the point-mass inertia of the barycentre, for polyhedra and for analytic shapes; all are symmetric.", "quantifier": "every mass distribution (finite point-mass family) and every mesh", "why_tests_cant": "Continuum; sign conventions of the double outer product.", "anchors": ["src/zeo_shape3d.c: zShape3DInertia", "src/zeo_ph3d.c: zPH3DBaryInertia", "include/zeo/zeo_mat3d.h: zMat3DCatDoubleOuterProd"]}
{"id": "C39", "title": "Closed outward meshes from box, cylinder, elliptic cylinder and cone", "statement": "For every division number of at least three (up to 2^31) and every non-degenerate shape the polyhedron generation succeeds, its vertices are the stated points of the two rims (or rim and apex, or box corners), every face index is valid, the number of faces is the allocated one, each directed edge occurs exactly once together with its reverse, no vertex lies before the plane of any face, and an interior point lies strictly behind every face (all normals outward).", "quantifier": "every division number (unbounded), every centre, axis, radius, frame and span", "why_tests_cant": "Unbounded family of index computations over all shapes; tests look at single meshes.", "anchors": ["src/zeo_shape3d_cyl.c: zCyl3DToPH", "src/zeo_shape3d_cone.c: zCone3DToPH", "src/zeo_shape3d_ecyl.c: zECyl3DToPH", "src/zeo_shape3d_box.c: zBox3DToPH"]}
{"id": "C40", "title": "Sphere, ellipsoid and capsule meshes", "statement": "For every division number of at least three the vertices of sphere and ellipsoid meshes lie exactly on the surface and all indices are valid, but the mesh as generated is not a consistently oriented closed surface: the faces around both poles look inward while all others look outward; turning exactly these faces gives a closed consistently oriented surface. The capsule mesh is closed, consistently oriented, outward and on the capsule surface whenever the division number is a multiple of four; for every other division number it has fewer vertices and faces than declared and refers to vertices that are never set.", "quantifier": "every division number (unbounded), every sphere, ellipsoid and capsule", "why_tests_cant": "Tests check that the volume converges, which holds in spite of the inverted caps.", "anchors": ["src/zeo_shape3d_sphere.c: zSphere3DToPH", "src/zeo_shape3d_ellips.c: zEllips3DToPH", "src/zeo_shape3d_capsule.c: zCapsule3DToPH"]}
{"id": "C41", "title": "Swept solids: torus and lathe", "statement": "For every loop of at least three points, every division number of at least three and every unit axis the torus generator yields a closed consistently oriented mesh with the allocated number of faces whose vertices are the loop points turned about the axis by equal angles. The lathe generator yields such vertices and valid indices, but for every rim and division number the cap at the end of the rim is wound opposite to the rest, so the mesh is never closed in the oriented sense; turning that cap repairs it. The signed volume of both is never negative.", "quantifier": "every number of loop or rim vertices, every division number, every axis", "why_tests_cant": "Unbounded family of index computations.", "anchors": ["src/zeo_ph3d.c: zPH3DCreateTorus, zPH3DCreateLathe"]}
{"id": "C42", "title": "Point containers behave as a sequence with a cursor", "statement": "Array-, address-array- and list-backed point data hold exactly the added points in order: size, rewind, fetch-all, find, nearest neighbour, vicinity and support map agree with the abstract sequence for every history of operations in which points are added before reading; adding after a read on array-backed data overwrites and truncates, unlike list-backed data.", "quantifier": "every finite history of operations", "why_tests_cant": "Interleavings of cursor moves and additions are unbounded.", "anchors": ["include/zeo/zeo_vecxd_data.h"]}
{"id": "C43", "title": "Nearest neighbour, vicinity and support map of point data", "statement": "Nearest neighbour returns a member at minimal distance; vicinity returns exactly the members strictly within the radius, in order; the support map returns a member maximal in the direction.", "quantifier": "every non-empty point sequence of any length, query point, radius, direction", "why_tests_cant": "Minimum over arbitrarily long sequences.", "anchors": ["include/zeo/zeo_vecxd_data.h: NN, Vicinity, SupportMap"]}
{"id": "C44", "title": "kd-tree nearest neighbour search", "statement": "After any sequence of insertions, the kd-tree search returns a stored point at minimal distance from the query and that distance; pruning never loses the answer.", "quantifier": "every insertion history (any length, duplicates, any order), every query point", "why_tests_cant": "Pruning correctness depends on the region bookkeeping of arbitrarily deep trees.", "anchors": ["src/zeo_vec3d_tree.c: zVec3DTreeAddPoint, zVec3DTreeNN"]}
{"id": "C45", "title": "kd-tree vicinity search, size and export", "statement": "After any insertion history the vicinity search returns exactly the stored points strictly within the radius, each once; the size equals the number of insertions; export to an array yields the points in insertion order; adding a container and exporting to one agree with this.", "quantifier": "every insertion history, every query point and radius", "why_tests_cant": "Arbitrarily deep trees.", "anchors": ["src/zeo_vec3d_tree.c: zVec3DTreeVicinity, zVec3DTreeToArray, zVec3DTreeAddPoint"]}
{"id": "C46", "title": "Octree insertion, change of resolution and search", "statement": "After any history of insertions inside its box and changes to any non-negative resolution, an octree answers exactly as the sequence of inserted points: vicinity returns the points strictly within the radius, each as often as it was inserted; nearest neighbour returns a stored point at the least distance and that distance, or nothing if there is no point; every point lies in one of the exported boxes. A point is refused, the octree being unchanged, exactly when it is outside the box by the tolerance; with points in that margin the nearest neighbour is off by at most twice the tolerance. The octant found for a point contains it. The automatically sized box is a cube around the given box whose side is a power of two times the resolution.", "quantifier": "every box, resolution, history of insertions and changes of resolution, query point and radius", "why_tests_cant": "Arbitrarily deep trees and pruning; recursion depth depends on the resolution; histories are unbounded.", "anchors": ["src/zeo_vec3d_octree.c: zVec3DOctreeAddPoint, zVec3DOctreeChangeResolution, zVec3DOctreeNN, zVec3DOctreeVicinity, zVec3DOctreeFindContainer, zVec3DOctreeToAABox3DList, zVec3DOctreeInitAuto"]}
{"id": "C47", "title": "Unification of octants: what is kept and what is lost", "statement": "Unifying an octree after any history of insertions and changes of resolution never invents or duplicates points: searches afterwards are right for a sub-collection of the inserted points, and for all of them when the box is less than four times the resolution. Beyond that depth points are lost: eight points at the corners of a box eight times the resolution all disappear. A point accepted after unification can be invisible to the vicinity search.", "quantifier": "every box, resolution and history; the losses are exhibited on concrete octrees for every sufficient recursion depth", "why_tests_cant": "Tests only look at the number of boxes for one configuration.", "anchors": ["src/zeo_vec3d_octree.c: zVec3DOctreeUnifyOctant, zVec3DOctreeAddPoint"]}
{"id": "C48", "title": "Barycentre, covariance and principal component analysis", "statement": "For every non-empty point set, however stored: the barycentre is the mean and the mean squared distance to any other point exceeds that to it by the squared distance between the two; the covariance about any centre is the symmetric matrix whose form is the mean product of deviations and whose trace is the mean squared distance; both are independent of the order of the points and of whether they are computed together. Principal component analysis terminates with a right-handed orthonormal frame in which the deviations are uncorrelated up to the tolerance and whose components are the mean squared deviations; the mean plane passes through the barycentre and no other plane has a mean squared distance lesser by more than four tolerances. The empty set is refused.", "quantifier": "every non-empty point sequence of any length, any of the storage kinds, any centre", "why_tests_cant": "Arbitrary length and continuum of points; optimality quantifies over all planes; tests use a few random clouds.", "anchors": ["src/zeo_vec3d_pca.c"]}
{"id": "C49", "title": "Colour conversions and colour strings", "statement": "Setting limits every intensity to the unit interval; multiplication and blending with a ratio in [0,1] stay within the unit cube, blending at ratio 1 and 0 gives the operands, greyscale keeps the total. RGB to HSV gives hue in [0,360) and saturation and value in [0,1] denoting the same colour on the colour circle, and both round trips are the identity (for HSV: positive saturation and value). A '#' string of n (1 to 8) hexadecimal digits per primary gives each primary as the fraction of 16^n-1, ignoring one or two spare digits; with more than 8 digits only the last 8 count and with fewer than three in total the result is undefined. Exactly the eight documented names are known, others give black. The documented hue of 360 gives yellow instead of red, and negative hues leave the result unset.", "quantifier": "every colour in the unit cube, every hue, saturation and value, every ratio, every hexadecimal string of any length", "why_tests_cant": "Sector boundaries of the colour circle have measure zero; strings are unbounded; round trips quantify over a continuum.", "anchors": ["src/zeo_render_color.c: zRGBSet, zRGBMul, zRGBBlend, zRGBToGS, zRGB2HSV, zHSV2RGB, zRGBDecodeStr, zRGBByName, zRGBByStr", "include/zeo/zeo_render_color.h"]}
{"id": "C50", "title": "Optical properties: blending, multiplication, writing and reading", "statement": "Blending two materials limits the ratio to [0,1] and interpolates each of the twelve coefficients, so none leaves the interval of its operands and ratios beyond the ends give the operands; multiplication acts on each coefficient. Printing a material and reading it restores its name and colours exactly and the other coefficients up to the tolerance. The document builder restores it only if no colour is black and alpha is not zero: a black transparent material comes back white and opaque. Initialisation does not set all parameters to 1 as documented.", "quantifier": "every pair of materials, every real ratio, every material written and read", "why_tests_cant": "Continuum; ratio outside [0,1]; defaults of omitted keys only show for values tests do not use.", "anchors": ["src/zeo_render_optic.c: zOpticalInfoCreate, zOpticalInfoCopy, zOpticalInfoBlend, zOpticalInfoMul, zOpticalInfoToZTK, zOpticalInfoFPrintZTK, zOpticalInfoFromZTK", "include/zeo/zeo_render_optic.h"]}
{"id": "C51", "title": "Elevation maps: recursive least squares, traversability, height queries", "statement": "Whatever points within the height range are fed to a levelled map, singly or by identification, every node ends with the unique plane of least regularised squared error over exactly the points within one interval of it (far side excluded), independent of their order, with their number and the mean of the squared errors each taken when its point came in; its elevation is that plane at the node and its normal the upward unit normal. A node is traversable exactly if its variance, slope and the disagreement with each of the eight neighbouring planes are within the thresholds. Heights inside the map lie between the four surrounding planes when their variances are positive. Exceptions shown: a point outside the height range is not ignored but fed to three nodes of the corner; on exactly flat ground at height zero the height query is 0/0; places in the last row read outside the array and in the last column use wrong cells.", "quantifier": "every grid, every point sequence of any length, every place", "why_tests_cant": "Induction over arbitrary length; optimality quantifies over all planes; boundaries and exact flatness have measure zero.", "anchors": ["src/zeo_map_terra.c: _zTerraCellUpdate, zTerraUpdate, zTerraIdent, zTerraForm, zTerraCheckTravs, zTerraZ, zTerraZRange, zTerraAllocRegion, zTerraAllocGrid"]}
{"id": "C52", "title": "Edges, triangles and planes: what the intersection routines find", "statement": "An edge and a plane, or a triangle and a plane, are reported to collide exactly when they share a point. The intersection of an edge with a plane is empty exactly when they are apart, the only common point when the edge is not almost parallel to the plane, and otherwise both ends, which are then within the tolerance of the plane. The points of a triangle-plane intersection lie on the outline within the tolerance of the plane, are told apart, and in regular position (no edge crosses the plane almost along it) are exactly the points where the outline meets the plane. Every point reported for edge and triangle, or for two triangles, belongs to one of them and is within the tolerance of the other; in regular position no common point is overlooked. Outside regular position the routines fail: four points may be produced where three are documented, overrunning an array; comparing a triangle with itself overruns an array of two; overlapping coplanar triangles and a coplanar edge crossing a triangle are reported apart.", "quantifier": "every edge, plane and created triangle; completeness for all pairs in regular position; failures exhibited by witnesses", "why_tests_cant": "Tests draw random pairs, almost surely in regular position, and compare one routine with another.", "anchors": ["src/zeo_col.c: zColChkTri3D, zIntersectTri3D, zIntersectTriPlane3D, zColChkTriPlane3D, zIntersectEdgePlane3D, zColChkEdgePlane3D, zIntersectEdgeTri3D, zColChkEdgeTri3D", "include/zeo/zeo_col.h"]}
{"id": "C53", "title": "Axis-aligned box against plane and triangle", "statement": "The points reported for a plane and an axis-aligned box are exactly those where the plane meets the inside of a box edge it is not almost parallel to, at most six of them, and the check succeeds exactly when there is one; when no corner lies on the plane, this is exactly when plane and box share a point. A triangle is reported to collide with the box exactly when a corner is strictly inside it or the outline passes through the inside of a face, so a reported collision is a real one. Failures: a plane through two opposite edges of the box, cutting it in halves, is not noticed; the test of box edges against the triangle never succeeds, so a triangle cutting right through the box with its outline around it is not noticed.", "quantifier": "every plane, axis-aligned box and created triangle", "why_tests_cant": "The set of planes and triangles is a continuum and the failures need particular positions; tests only try random ones.", "anchors": ["src/zeo_col_box.c: zColChkPlaneAABox3D, zIntersectPlaneAABox3D, zColChkTriAABox3D, zIntersectTriAABox3D"]}
{"id": "C54", "title": "Bounding balls of point sets", "statement": "For every non-empty planar point set the iterative bounding ball terminates, returns a disk through one to three of the points, never larger than any disk enclosing the data, and unless it issues its warning every point is inside up to the tolerance. The recursive version likewise never exceeds the least radius, but may leave points out (a five-point witness misses one by more than 3). In space the iterative version terminates; unless it dereferences the null result of a flat tetrahedron, which needs at least four points, it returns a sphere through one to four of the points which, unless it warns, holds every point up to the tolerance; the sphere is the least one when one or two points bound it or for up to three points. It is not the least one in general (an eight-point witness gets a radius above 12 without a warning although radius 3.5 suffices), and the recursive version in space may leave points out. For no points at all the radius is -1.", "quantifier": "every finite list of points, every execution of the stack machine with its retries", "why_tests_cant": "Minimality is a statement about all enclosing balls and containment about all point sets; tests only check containment on random clouds, where the failures are rare.", "anchors": ["include/zeo/zeo_bv2d_boundingball.h: zVec2DDataBoundingBall, zVec2DDataBoundingBallRecursive", "include/zeo/zeo_bv3d_boundingball.h: zVec3DDataBoundingBall, zVec3DDataBoundingBallRecursive", "include/zeo/zeo_bvxd_boundingball.h", "src/zeo_bv3d_boundingball.c"]}
{"id": "C55", "title": "Planar convex hulls", "statement": "For coplanar points whose coordinates in the plane are equal or a tolerance apart, the planar convex hull is a list of at least three of the given points that turns strictly the same way at every corner, has every given point on the inner side of every edge, and has every given point in its convex hull. When the points are alike or lie along a line no hull is returned. The polyhedron made of it has the loop as its vertices and a fan of triangles together with its mirror image as its faces. For a strictly convex loop the closest-point query returns the nearest point of some edge facing the query point together with its distance; it is the nearest point of the whole polygon whenever at most two edges face the point, but with three facing edges it may be wrong (a witness is off by more than 1), and for every point of the polygon it returns HUGE_VAL although the header promises zero.", "quantifier": "every finite list of points, every normal and basis direction, every sorting routine that orders a totally preordered list, every query point", "why_tests_cant": "Strict convexity and containment over all point sets, and nearest-point optimality over all polygons and points, are universal geometric claims; the failure with three facing edges depends on where the loop starts.", "anchors": ["include/zeo/zeo_bv2d_convexhull.h: zVec3DDataConvexHull2D, zVec3DDataConvexHull2DPH3D, zConvexHull2DClosest", "src/zeo_bv2d_convexhull.c"]}
{"id": "C56", "title": "Triangulation of loops", "statement": "Triangulating a loop of n vertices (n at least 1) always terminates with max(n-2,0) triangles whose corners are loop vertices. For a planar loop that turns at the first of its leftmost corners, either at some stage of ear clipping no corner other than the last one of the remaining loop is an ear, or the triangles tile the loop: all turn the way that corner does, their areas add up to the area of the loop, they cover every point with non-zero winding number, no two of them overlap at a point of winding number one, and none contains a point of winding number zero. A strictly convex planar loop without three nearly aligned corners is always tiled. In general it is not: for a square with an additional vertex in the middle of its left side, taken as the first vertex, some points are in no triangle and others in two. Aligning a list of triangles makes every normal have a non-negative component along the reference and keeps the corners; copying to an array copies the leading triangles, writing one even when the size is 0.", "quantifier": "every vertex loop of any length, every point of the plane, every ray direction of the winding number; every list of triangles and reference direction", "why_tests_cant": "Tiling is a statement about all points of the plane and all loops of unbounded length; a test can only compare counts or sampled areas of a few polygons.", "anchors": ["include/zeo/zeo_elem3d_list.h: zLoop3DTriangulate, zTriangulate, zTri3DListAlign, zTri3DListCopyArray", "src/zeo_elem3d_list.c"]}
{"id": "C57", "title": "Boundary representations: conversion, cutting, merging, and intersection of polyhedra", "statement": "Converting a polyhedron gives faces, edges and vertices that refer to each other consistently, with one edge per pair of vertices, no unused cell, every face in order with its stored normal and its corners up to the tolerance (exactly, when no two distinct vertices agree up to the tolerance), and watertight when the polyhedron is closed; converting back keeps the faces in order and recomputes unit normals. Cutting consistent data by a plane is always defined and leaves consistent data without dead references; every face left is a piece of a face, turned the same way; all points left are on the surface and less than the tolerance beyond the plane; every point of the surface at least the tolerance below the plane is left; without vertices nearly on the plane this is exact, except that faces touching the plane only from beyond are dropped. If the surface was watertight, every edge left is still shared evenly by its faces or lies on the plane. The same holds for all planes of a polyhedron with unit normals; when the first of its faces is degenerate a plane that was never written is used. Merging keeps the faces of the first surface, adds those of the second one with corners moved to vertices of the first one that agree up to the tolerance, and adds only vertices that agree with none. The outcome is consistent exactly when no edge of the second surface has exactly one end at a vertex of the first one; otherwise an edge refers to a freed vertex, and cutting the outcome reads it. Cutting a polyhedron by another one, and intersecting two polyhedra, yields the triangles of each surface cut out by the planes of the other one, up to the tolerance. The restricted conversion keeps exactly the faces with a corner well inside the box or a side through the inside of one of its faces. The fast intersection returns NULL exactly when the vertices lie side by side along an axis, and otherwise cuts only the faces so kept for the common box of the two polyhedra; hence it can leave out the very face that closes the common part, as for a corner of a tetrahedron under a big face.", "quantifier": "every boundary representation with consistent references, every polyhedron with vertex numbers in range, every plane, every sign pattern of the vertices", "why_tests_cant": "27 sign patterns of a face times shared edges and new vertices, with dynamic cells freed afterwards: the invariants of references and watertightness range over all surfaces; the dangling reference after merging shows up only in a later cut of an unlucky pair.", "anchors": ["include/zeo/zeo_brep.h: zPH3D2BREP, zBREP2PH3D, zBREPTrunc, zBREPTruncPH3D, zBREPMerge, zPH3DTruncBREP, zIntersectPH3DBREP, zPH3D2BREPInBox, zIntersectPH3DBREPFast", "src/zeo_brep.c", "src/zeo_brep_trunc.c", "src/zeo_brep_bool.c"]}
{"id": "C58", "title": "Multi-shape queries", "statement": "The inside test of a set of shapes is true exactly when it is true for some member; with margin zero and members of positive size other than capsules, it is true only at points of the union of the solids and at every interior point of a member. The closest-point query returns the answer of a member with the least distance, and is undefined exactly for an empty set or when it is undefined for a member. For members in good order and a point that meets none of the exceptions of the single shapes, the point returned is nearest in the union of all solids, the distance is exact outside and not positive (with the point itself returned) inside. It can be wrong above the second cap of a cylinder, whose negative distance hides nearer members. The nearest-vertex query of polyhedra returns a nearest vertex of all members; vertex export collects exactly the vertices of all members; the bounding ball, when found without warning, holds all of them and every box member entirely, up to the tolerance. The set made from an octree has as its union exactly the octree's boxes, holds every inserted point and stays in the region; for an octree without points it is one box filling the region.", "quantifier": "every list of shapes of any length and classes, every point and margin, every history of octree insertions and resolution changes", "why_tests_cant": "Arbitrary list lengths and combinations of classes, and a continuum of query points; the wrong answer occurs only for particular combinations of members and positions.", "anchors": ["include/zeo/zeo_multishape3d.h: zMultiShape3DClosest, zMultiShape3DPointIsInside, zMultiShape3DContigVert, zMultiShape3DVertData, zMultiShape3DBoundingBall, zMultiShape3DFromOctree", "src/zeo_multishape3d.c", "src/zeo_shape3d.c: zShape3DClosest, zShape3DPointIsInside"]}
{"id": "C59", "title": "Proximity and collision of convex hulls (GJK, MPR, Minkowski difference)", "statement": "The support-map query of a container returns a point with the greatest inner product with the given direction. The pair of points that zGJK returns for two non-empty sets of points is, up to weights below the tolerance that are dropped, a nearest pair of the two convex hulls: each lies within three tolerances times the extent of the data of points q1, q2 of the hulls whose squared distance exceeds no other pair's by more than two tolerances, and equals them when no weight is dropped. This holds whenever no three differences form a triangle that is degenerate within the tolerance without being exactly degenerate. Under the same condition the loop ends after finitely many steps if no weights are dropped or the data are compact. zGJKPoint does the same for one point, and two single points are returned as they are. The boolean answer of zGJK is not a collision test: it can be false although one set is a point deep inside the hull of the other, and true although the hulls are half a unit apart. It is true, though, whenever the hulls have a common point and no triangle of differences, all of length at most M, comes within 1e-6 + 6e-12 M of the origin. zColChkPH3D gives the same points and the same answer for the vertices of two polyhedra. A negative answer of zMPR comes with a direction in which the hulls overlap by no more than the tolerance. The Minkowski difference is built only from the differences with the first point of the first set.", "quantifier": "every two finite non-empty sets of points, every content of the uninitialised slots, every number of iterations", "why_tests_cant": "Unbounded numbers of points and loop steps; nearest means smaller than every other pair of a continuum; the wrong answers need particular orders of the slots.", "anchors": ["src/zeo_col_gjk.c: zGJK, zGJKPoint", "src/zeo_col_mpr.c: zMPR", "src/zeo_col_minkowski.c: zVec3DDataMinkowskiSub", "include/zeo/zeo_vecxd_data.h: zVec3DDataSupportMap", "include/zeo/zeo_col_gjk.h", "include/zeo/zeo_col_mpr.h"]}
{"id": "C60", "title": "Rational spline surfaces: evaluation, tangents, meshes, and the surfaces made for shapes", "statement": "Allocation fails exactly when a number of control points does not exceed the degree; a fresh surface has weights 1 and the parameter ranges [0, points - degree]. With positive weights every parameter of the domain gives a point, which belongs to the convex hull of the control points; when the end knots are repeated the four corners are the corner control points. Transforming, inversely transforming or mirroring the control points transforms every point. The tangents are unit vectors along the partial derivatives (where those are not negligible), the normal is a unit vector orthogonal to both, on the right-hand side, or zero. The mesh has one vertex for every grid parameter and two triangles per cell. The surfaces made for an ellipsoid, a sphere, a torus and a cone are exactly those sets. The surface made for a box, a cylinder or an elliptic cylinder is not: it consists of the two end faces, and no parameter gives a point between them. The search of the closest point returns a point of the surface and its distance, but not the nearest one: a point of the same surface can be ten times nearer.", "quantifier": "every degree, every non-decreasing knot vector of the right length, every net of control points, every parameter, every segment search that finds a knot interval of positive length containing the parameter", "why_tests_cant": "Exact equality of a rational surface with a quadric or a torus is a statement about a continuum of points in both directions; derivative laws hold for all degrees by induction; the missing walls need the repeated interior knot to be noticed.", "anchors": ["src/zeo_nurbs3d.c: zNURBS3DAlloc, zNURBS3DVec, zNURBS3DVecTSpace, zNURBS3DClosest, zNURBS3DToPH, zNURBS3DXform, zNURBS3DXformInv, zNURBS3DMirror", "src/zeo_nurbs3d_shape.c: zNURBS3DBox, zNURBS3DEllips, zNURBS3DSphere, zNURBS3DECyl, zNURBS3DCyl, zNURBS3DCone, zNURBS3DTorus", "include/zeo/zeo_nurbs3d.h"]}
{"id": "C61", "title": "View frames", "statement": "Translating and rotating a view cascades the corresponding motion in view coordinates; a look-at view sits at the eye with a proper rotation whose z axis is the part of the upper vector normal to the line of sight, and whose x axis points from the looked-at point to the eye (the header says the opposite direction); a gazing view stays at the given distance from the gazed point.", "quantifier": "every frame, eye, centre, upper vector, angle and distance", "why_tests_cant": "Continuum of inputs; a sign error is invisible when tests compare only the rendered result.", "anchors": ["src/zeo_frame3d.c: zFrame3DTranslateView, zFrame3DRotateView, zFrame3DLookAtView, zFrame3DGazeAndRotateView", "include/zeo/zeo_frame3d.h"]}
{"id": "C62", "title": "Construction and printing of 6x6 matrices", "statement": "zMat6DCreate and zMat6DPutMat3D place every block at its row and column; the C++ constructor and the printed table agree with the matrix only when the two off-diagonal blocks are equal (otherwise these blocks are exchanged).", "quantifier": "every quadruple of blocks, every entry", "why_tests_cant": "Tests use symmetric or block-diagonal matrices, for which the exchange is invisible.", "anchors": ["include/zeo/zeo_mat6d.h: zMat6D, zMat6DCreate, zMat6DPutMat3D", "src/zeo_mat6d.c: zMat6DFPrint"]}
{"id": "C63", "title": "Ellipses, ellipsoids and elliptic cylinders", "statement": "With an equation solver whose answers are roots, the closest point of an ellipse, ellipsoid or elliptic cylinder lies in it and is nearest to the query point; inside tests with a margin are exactly the tests of the shape with enlarged radii; moving or mirroring moves or mirrors the set of points; a sphere converted to an ellipsoid is the same set. An elliptic cylinder made with a reference direction has orthonormal radial directions; made without one its second radial direction has the length of the axis.", "quantifier": "every ellipse, ellipsoid and elliptic cylinder with positive radii, every query point, every frame, every exact solver", "why_tests_cant": "Optimality over a continuum; the contract with the equation solver cannot be sampled.", "anchors": ["src/zeo_elem2d_ellips.c", "src/zeo_shape3d_ellips.c: zEllips3DClosest, zEllips3DPointIsInside, zEllips3DXform", "src/zeo_shape3d_ecyl.c: zECyl3DDefAxis, zECyl3DClosest, zECyl3DPointIsInside"]}
{"id": "C64", "title": "Convex polyhedra: closest point, inside test, nearest vertex, bounding box", "statement": "For a polyhedron whose faces bound a convex solid: for a point outside, the closest point lies in the solid, is nearest, and the distance is its positive distance; for a point strictly inside, the distance is 0; for a point on the surface it is 0 exactly when the point lies in the triangle of every face whose plane contains it, so a flat side made of two triangles gives a positive distance. The inside test accepts every point closer to the solid than the margin. The contiguous vertex is the nearest one. The axis-aligned box is the least box that contains all vertices and also the origin.", "quantifier": "every convex polyhedron of any size, every query point, every margin", "why_tests_cant": "Optimality over a continuum for meshes of any size; the failing points form a set tests rarely touch.", "anchors": ["src/zeo_ph3d.c: zPH3DClosest, zPH3DPointIsInside, zPH3DContigVert, zPH3DAABB", "src/zeo_elem3d.c: zTri3DClosest"]}
{"id": "C65", "title": "Mass properties of the analytic solids", "statement": "The volume, the barycentre and the inertia tensor about any reference point that the library reports for a box, sphere, ellipsoid, cylinder, elliptic cylinder, capsule or cone equal the integrals of 1, of the position, and of the point inertia over that solid, in any position and attitude.", "quantifier": "every solid of these seven kinds (non-degenerate axis), every density, every reference point", "why_tests_cant": "Equality with integrals over continua.", "anchors": ["src/zeo_shape3d_box.c: zBox3DVolume, zBox3DBaryInertia", "src/zeo_shape3d_sphere.c", "src/zeo_shape3d_ellips.c", "src/zeo_shape3d_cyl.c", "src/zeo_shape3d_ecyl.c", "src/zeo_shape3d_capsule.c", "src/zeo_shape3d_cone.c"]}
{"id": "C66", "title": "Angles between vectors and the rotation between two directions", "statement": "The angle reported between two vectors is the one whose cosine and sine give their inner product and the length of their outer product; signed about a unit axis orthogonal to both, turning the first vector about the axis by the angle gives the direction of the second, and swapping the vectors negates it; the same in the plane. The rotation vector reported between two non-parallel vectors has that angle as length, is orthogonal to both, and turns the first into the direction of the second; for parallel vectors it is zero, also for opposite ones, where the documented effect fails. Polar coordinates give a vector with the given radius and angles.", "quantifier": "every pair of vectors, every axis, every radius and angles", "why_tests_cant": "Continuum; the opposite-vector case has measure zero.", "anchors": ["src/zeo_vec3d.c: zVec3DAngle, zVec3DAAError, zVec3DCreatePolar", "src/zeo_vec2d.c: zVec2DAngle", "include/zeo/zeo_vec2d.h: zVec2DRot90CW"]}
{"id": "C67", "title": "Attitude increments, differentiation and cascaded rotation vectors", "statement": "Turning an attitude by an angular velocity for a time and then differentiating numerically returns the angular velocity (turn below half a turn); conversely turning by the numerical derivative reaches the second attitude. The cascade of two rotation vectors rotates every vector like the two in sequence, the error of two rotation vectors composed with the second gives the first, and the change of basis of a matrix is undone by its inverse and keeps trace and determinant.", "quantifier": "every attitude, every angular velocity and time step with the turn away from the identity and from half a turn by the tolerance", "why_tests_cant": "Continuum of attitudes.", "anchors": ["src/zeo_mat3d.c: zMat3DRotCat, zMat3DDif, zAACascade, zAAError, zRotMat3D, zRotMat3DInv", "src/zeo_vec3d.c: zVec3DDif"]}
{"id": "C68", "title": "Orthonormalisation of a matrix and its checks", "statement": "Orthonormalising a matrix with two different axes gives an orthonormal matrix whose first chosen column has the direction of the original one and whose second chosen column has the direction of the part of the original one orthogonal to the first; its determinant is 1 when the axes are given in cyclic order and -1 otherwise (a right-handed matrix may become left-handed). The orthonormality check accepts exactly the matrices whose product with their transpose is within the tolerance of the identity in every entry; the handedness check accepts exactly positive determinants.", "quantifier": "every matrix with usable columns, every pair of axes", "why_tests_cant": "Continuum of matrices.", "anchors": ["src/zeo_mat3d.c: zMat3DOrthonormalize, zMat3DIsOrthonormal, zMat3DIsRightHand"]}
{"id": "C69", "title": "Linear algebra of vectors, matrices and quaternions", "statement": "Addition, subtraction, reversal, scaling, concatenation, inner, outer, triple and dyadic products, norms, distances and interior division of 2D, 3D and 6D vectors, 2x2 and 3x3 matrices and Euler parameters are the componentwise vector-space operations; division fails exactly for a zero divisor (under the tolerance for Euler parameters) and is undone by multiplication; numerical differences integrate back.", "quantifier": "all operands", "why_tests_cant": "Universally quantified algebra.", "anchors": ["include/zeo/zeo_vec3d.h", "include/zeo/zeo_vec2d.h", "include/zeo/zeo_vec6d.h", "include/zeo/zeo_mat3d.h", "include/zeo/zeo_mat2d.h", "src/zeo_ep.c: zEPAdd, zEPSub, zEPRev, zEPMul, zEPDif"]}
{"id": "C70", "title": "Prisms and pyramids over a loop are closed, face outwards and enclose the swept region", "statement": "For a bottom loop of at least three corners in a plane, convex or not and in either sense, and any sweep that leaves the plane (oblique, up or down), a prism has as vertices the bottom corners followed by their shifted copies and 4(n-1) faces with recomputed normals; a pyramid has the bottom corners and the apex, and 2(n-1) faces; creation never fails. Unless ear clipping of the loop gets stuck (no ear among the corners but the last), the surface is closed and consistently oriented outwards: every directed side of a face is used exactly once together with its reverse, no face repeats a vertex, and the volume computed from the faces is |height| times the area of the loop (a third of it for the pyramid). Convex loops without nearly aligned corners never get stuck, and a point is reported inside the prism or pyramid exactly when it lies strictly between the bottom and the top (the apex) on a line of the sweep through the inside of the bottom. A square with a corner in the middle of its left side taken first gets stuck and yields a surface with a gap; fewer than three corners read faces never written.", "quantifier": "every planar loop of any number of corners, every sweep vector or apex out of the plane, every query point", "why_tests_cant": "Closedness and orientation depend on the order in which ears are found, on the alignment of both caps and on the sense in which the side faces are made; only an induction over the ears shows that the caps always fit the side faces.", "anchors": ["include/zeo/zeo_ph3d.h: zPH3DCreatePrism, zPH3DCreatePyramid", "src/zeo_ph3d.c 299-414", "src/zeo_elem3d_list.c 28-145"]}
{"id": "C71", "title": "STL files are read back as the same triangles with corners joined, and what goes wrong", "statement": "A polyhedron with at least one and fewer than 2^31 faces, written as binary STL from a name with 80 bytes of memory, is recognised as binary and read back with that name as one face per face in the same order; written as text STL with any name whose words after the first are neither facet nor endsolid it is read back likewise with the first word as name; reading a file by its name finds out by itself which of the two it is (a text of less than 7.5 gigabytes is never taken for binary). Each corner read is within 1e-12 per coordinate of the corner as coded (single precision rounded to nearest for binary, ten digits for text; single precision coordinates come back exactly); vertices are coded corners, all different and all used; if different corners are further apart than the tolerance nothing is moved and the vertices are the corners in order of first occurrence. Normals are recomputed from the corners, the normals in the file are not used. Reading ends on any text, and a text without endsolid never gives a polyhedron. This needs that the uninitialised point of the empty vertex tree differs from the first corner: if memory happens to hold the first corner, the second corner silently takes its place in the first face. A polyhedron without faces is read as NULL; a text written with an empty name loses its first face (the name read is facet); a binary file cut off after a face is read without failure, with the last face repeated.", "quantifier": "every polyhedron with valid face indices, every four-byte code of numbers, every rounding of printed numbers, every content of uninitialised memory, every text", "why_tests_cant": "Joining of corners goes through nearest-neighbour queries on a tree that grows with the file, so the outcome depends on all corners and their order; uninitialised memory cannot be controlled by tests.", "anchors": ["include/zeo/zeo_ph3d.h: zPH3DFReadSTL_ASCII, zPH3DFWriteSTL_ASCII, zSTLIsBin, zPH3DFReadSTL_Bin, zPH3DFWriteSTL_Bin, zPH3DReadFileSTL", "src/zeo_ph3d_stl.c 10-329", "src/zeo_vec3d_tree.c 64-135"]}
{"id": "C72", "title": "Oriented bounding boxes contain the hull tightly with a least rectangle", "statement": "Given a convex hull polyhedron (every vertex on or beneath every face), the oriented bounding box has orthonormal right-handed axes, contains every point of the hull and touches it on all six sides. Its third axis is the outward normal of the face over which the hull is thinnest, and no rectangle across this axis, at any angle, that contains the hull seen along it has a smaller area; it rests on two vertices seen as an edge. Hence no box with the same third axis has a smaller height, base or volume. The null pointer is returned exactly when there is no hull or when the vertices seen along the axis are alike or along a line. It is not the least box about the points in general: a tetrahedron that fits into a box of volume 2 gets a box of volume at least 3.", "quantifier": "every hull polyhedron with any number of vertices and faces whose vertices, seen along the chosen normal, are told apart by the tolerance; every rectangle and box compared", "why_tests_cant": "That the best of the finitely many rectangles resting on edges is the best of all angles is a theorem about rotating calipers; tests compare at most a grid of angles, and containment needs every hull.", "anchors": ["include/zeo/zeo_bv3d_obb.h: zVec3DDataOBB", "src/zeo_bv3d_obb.c 11-117"]}
{"id": "C73", "title": "The identified frame is the best fit of two point lists and recovers the motion that made them", "statement": "zVec3DDataIdentFrame of two lists of corresponding points returns no frame exactly if their numbers differ or are below three, and a position that is not a number exactly if all first points coincide; it always ends and leaves the points as they are. If every direction of the first points has a covariance of at least s (at least 1e-6) with some direction of the second points, no rotation or reflection agrees better with the points than the returned attitude, no rotation or reflection with any displacement fits the points with a smaller mean squared error (up to 2e-12/s^2), and the attitude preserves lengths to the same precision. If the second points come from the first by a rotation or reflection, a positive scaling and a displacement, the attitude and the displacement are found again up to a bound of the order 1e-12 over the squared scaled spread, with the same handedness. If there are three points only or the points lie in a plane, the attitude is singular, so not a rotation. The scaling that is found is used for the position but not returned: the frame does not take centre to centre when the points are scaled. The singular value decomposition it uses has an orthonormal first basis, values zero or at least 1e-6, a rank that counts them, and reproduces the matrix, exactly for rank three.", "quantifier": "all lists of points of any length in any kind of point container; all 3x3 matrices; every rotation, reflection, scaling and displacement compared", "why_tests_cant": "Optimality over all rotations and displacements, and the error bound of the recovered motion, quantify over a continuum; tests sample random motions, hit planar point sets only by design and do not see a position that is wrong only for scaled points.", "anchors": ["include/zeo/zeo_vec3d_profile.h: zVec3DDataIdentFrame", "src/zeo_vec3d_profile.c 82-119", "src/zeo_mat3d.c: zMat3DSVD 985-1003"]}
{"id": "C74", "title": "Estimated normals are unit, outward and span the flattest direction of each point's vicinity", "statement": "zVec3DDataNormalVec (by octree, the default) and zVec3DDataNormalVec_Tree with a positive radius return, for every non-empty set of points in any kind of container, one vector per point in the same order: of length one, not pointing towards the centre of all points, and such that along no other direction do the points less than the radius away, each counted as often as it occurs, deviate less from the point (mean square, up to 4e-12). They always end and leave the points as they are. For no point the kd-tree function returns an empty result while the default function reads an uninitialised box; with radius zero both use a normal vector that is never set.", "quantifier": "all non-empty lists of points in any kind of point container, all positive radii; all unit directions compared", "why_tests_cant": "Optimality over all directions for every point of every cloud, and independence of the search structure that finds the vicinity, cannot be sampled; the empty cloud and the zero radius read uninitialised memory, which a test may not notice.", "anchors": ["include/zeo/zeo_vec3d_profile.h: zVec3DDataNormalVec, zVec3DDataNormalVec_Tree, zVec3DDataNormalVec_Octree", "src/zeo_vec3d_profile.c 12-78"]}
{"id": "C75", "title": "What the iterative closest point method guarantees when it stops, and what it does not", "statement": "zVec3DDataICP on non-empty source and target points always ends within 200 rounds. If it stops because the error is below the tolerance, every source point that was considered in that round, mapped by the returned frame, is closer than the tolerance to a target point; with a sampling rate of one these are all source points. If the target points are the displaced source points in any order, the displacement is found exactly in the first round, whatever is sampled. A frame that is not a number arises only from coinciding source points. With fewer than three source points the frame only displaces centre to centre. Not guaranteed: if no point happens to be considered in a round, the method stops there as if converged, even though the frame leaves every source point far from all target points and is worse than the displacement of the centres it started from. Empty source or target points are undefined.", "quantifier": "all non-empty lists of source and target points in any kind of point container, all sampling rates and tolerances, all sequences of random numbers", "why_tests_cant": "The outcome depends on a sequence of random numbers; the premature success occurs only for sequences a test is unlikely to draw, and nearness to the target must hold for every cloud.", "anchors": ["include/zeo/zeo_vec3d_profile.h: zVec3DDataICP", "src/zeo_vec3d_profile.c 121-168"]}
{"id": "C76", "title": "The convex hull in space is the hull: closed, outward, complete, for all points in general position", "statement": "zVec3DDataConvexHull on at least four points, no four of them (nearly) in a plane, always ends, after at most one round per point, and returns a polyhedron that is the convex hull: its vertices are distinct given points and exactly those that are not in the convex hull of other given points; every vertex is used; the faces form a closed surface with consistent orientation; every face carries the unit outward normal and has all given points except its corners strictly beneath; a position is in the convex hull of the points if and only if it is beneath all faces. For no point, points at one place within the tolerance, or points on one line the null pointer is returned; for points in one plane either the null pointer or the result of the planar method (C55).", "quantifier": "all lists of four or more points in general position (off each other's planes by more than twice the tolerance, also relative to the distances), in any order; all degenerate lists", "why_tests_cant": "The incremental method rewires facets, ridges and vertex flags with data-dependent horizons; that no run leaves a hole, a turned face, a lost point or a dangling contiguity cannot be shown by sampling clouds.", "anchors": ["include/zeo/zeo_bv3d_convexhull.h: zVec3DDataConvexHull", "src/zeo_bv3d_convexhull.c 1-530"]}
{"id": "C77", "title": "Delaunay triangulation: empty circles, no overlap, nothing missing, and where it fails", "statement": "For one or more points of which, together with the three corners of the outer triangle (built around the disk of zVec2DDataBoundingBallRecursive), no three lie nearly on a line: zVec2DDataDelaunayTriangulate ends after at most 4n+5 flips per point. It returns true if and only if every point lies inside the outer triangle, which is so for points within one and a half radii of the centre of the disk. The triangles it then returns join given points counter-clockwise; no given point and no outer corner is inside the circle through the corners of a triangle; no two triangles overlap; any three given points whose circle keeps all other points and outer corners outside are joined; if further given points lie on such a circle, the region is still covered. Two returned triangles name each other as neighbours along a side exactly when they share it, and no neighbour is null. Where it fails: for no points the list stays uninitialised; there are five ordinary points for which it returns false because the disk misses one; three points making a flat triangle can be left unjoined, since the outer triangle is of finite size; neighbours that had an outer corner are freed but still pointed at.", "quantifier": "all lists of points in general position, in any order; all numbers of iterations from the stated bound on", "why_tests_cant": "The correctness of incremental flipping is a global statement about all triangles after every insertion, with neighbour pointers rewired at each flip; tests look at a few pictures and cannot see dangling neighbours or a missed triangle of another cloud.", "anchors": ["include/zeo/zeo_voronoi2d.h: zVec2DDataDelaunayTriangulate", "src/zeo_voronoi2d.c 1-249"]}
{"id": "C78", "title": "Voronoi diagram: every cell is a closed polygon holding the positions nearest to its seed, and where it fails", "statement": "For one or more points of which, together with the three corners of the outer triangle, no three lie nearly on a line, and which all lie inside the outer triangle: zVec2DDataVoronoiDiagram returns true and gives one cell for each point, in the order of the points. The loop of each cell is a closed polygon of at least three nodes, in clockwise order. Each side has its two ends as far from the seed as from another site that belongs to no other side of the cell; no site is nearer to a node than the seed. A position is on the inner side of all sides exactly if no site is nearer to it than the seed. The sites are the given points and the three outer corners. If a point lies outside the outer triangle, the function returns false. Where it fails: for no points an uninitialised list is used; the outer corners, which the user never gave, own a part of the plane, so a position far away may be outside the cell of the given point nearest to it.", "quantifier": "all lists of points in general position, in any order; all numbers of iterations from the stated bound on", "why_tests_cant": "Whether the nodes collected triangle by triangle close into a single loop around the seed depends on the whole triangulation; the in-place reordering of the linked list must end and must not lose nodes. Tests draw a few diagrams.", "anchors": ["include/zeo/zeo_voronoi2d.h: zVec2DDataVoronoiDiagram", "src/zeo_voronoi2d.c 276-406"]}
{"id": "C79", "title": "Intersection of convex polyhedra: contains the common part, exceeds each face by less than 1e-5, exact away from faces", "statement": "Let two convex polyhedra be given with outward unit normals. If zIntersectPH3D returns a polyhedron, then it has worked from a base point that is strictly beneath all faces of both, and, provided the two convex hulls it asks for are right and the region is not larger than 1e5: the result is exactly the set of positions beneath all faces, where faces nearer than 1e-5 to the base point count as moved away to the distance 1e-5. So the result contains the intersection, exceeds no face by 1e-5 or more, and is the intersection if the base point is at least 1e-5 beneath all faces. The modelled zVec3DDataConvexHull is right in this sense on every list of four or more points in general position. The function never divides by zero and never releases an unset hull. If the polyhedra do not collide, or their contact points are nearer than 1e-4, it returns the null pointer. Where it is not exact: whenever the middle of the contact points is outside one polyhedron, the base point is moved to 2e-12 beneath a face, which is then moved away by 1e-5, so the result sticks out.", "quantifier": "all pairs of convex polyhedra with any numbers of vertices and faces, all contact points, all hull functions that are right on the two lists they get", "why_tests_cant": "That points of the dual hull correspond to faces and back is a theorem about all directions at once; tests sample a few random pairs and compare volumes roughly. Errors of 1e-5 are below what a test notices.", "anchors": ["include/zeo/zeo_col_ph.h: zIntersectPH3D", "src/zeo_col_ph.c 22-133"]}
{"id": "C80", "title": "Shape description files: what is written is read back; placement, mirror, loop and automatic axis keys mean what they say", "statement": "Writing a shape with zShape3DFPrintZTK and reading the section with zShape3DFromZTK gives the same shape: name, kind, all dimensions and axes, vertices, faces and normals, number of divisions, and the same attached optical property and texture. This holds for boxes, spheres, ellipsoids, cylinders, capsules, elliptic cylinders, cones and polyhedra whose axes have unit length, whose number of divisions is positive, and whose faces refer to existing vertices. A section with the keys pos, att, rot and frame gives the shape of the section without them, moved by the frame these keys make in the order of the file; each rot turns about its axis by its angle in degrees. The word auto, after the two other axes, completes them to a right-handed frame. A mirror key gives the mirrored body, the attachments of the original and the own name. A loop with a prism or pyramid key gives the prism or pyramid of the loop. A polyhedron is only read if all its faces refer to vertices of the section. Where the reader goes wrong: an axis of rot in parentheses (the form the library prints vectors in) makes the angle vanish; auto before the other axes uses the coordinate axes; a type key before the mirror key erases the name; faces before vertices are accepted with null normals.", "quantifier": "all shapes of the eight kinds, any names, any numbers of vertices, faces and attachments, all sections with any number of placing keys at any place among the other keys", "why_tests_cant": "A round trip on a few files cannot show that no key disturbs another: the same section is evaluated twice, once by the table of shapes and once by the table of the kind. Order effects appear only for key orders nobody tested.", "anchors": ["include/zeo/zeo_shape3d.h: zShape3DFromZTK, zShape3DFPrintZTK", "src/zeo_shape3d.c 299-466", "src/zeo_ph3d.c 490-730", "src/zeo_shape3d_box.c 33-137", "src/zeo_vec3d.c 510-525", "src/zeo_mat3d.c 1010-1076", "src/zeo_frame3d.c 320-356"]}
{"id": "C81", "title": "Files of several shapes: materials, textures and shapes with their attachments are read back; what copying loses", "statement": "Writing a zMultiShape3D with zMultiShape3DFPrintZTK and reading the file with zMultiShape3DFromZTK gives the same object: all optical properties, all textures with coordinates and faces, all shapes, each attached to the same optical property and texture. This holds for any numbers of them, if all have names, names of shapes differ, attachments are the first of their name, coefficients are 0 (or 1) or above the tolerance, and shapes are storable as in C80. zMultiShape3DClone copies optical properties and shapes without textures exactly, and attaches the copies to the copied optical properties. Where it goes wrong: the reader reports success though a shape was refused, and everything after that shape is left empty; a bump map of depth 0 is written but refused when read; a copied texture has zero coordinates and faces; a texture without faces makes the copy fail; copied shapes refer to textures of the original; a shape without an optical property has undefined behaviour in the copy.", "quantifier": "all numbers of optical properties, textures and shapes, all coordinates, faces, names and attachments satisfying the stated conditions", "why_tests_cant": "A test file shows one arrangement. That attachments survive for all numbers and orders, and that no section disturbs the slots of another, is an invariant of the loop over sections. A failure reported as success looks like success to a test.", "anchors": ["include/zeo/zeo_multishape3d.h: zMultiShape3DFromZTK, zMultiShape3DFPrintZTK, zMultiShape3DClone", "src/zeo_multishape3d.c 41-70, 220-310", "src/zeo_render_texture.c 50-230", "src/zeo_shape3d.c 49-61"]}
{"id": "C82", "title": "PLY files: meshes of triangles are read back from any admissible file; polygons, missing coordinates and grids are misread", "statement": "zPH3DReadFilePLY applied to a file written by zPH3DWriteFilePLY_ASCII or zPH3DWriteFilePLY_Bin gives the same polyhedron: vertices as far as ten digits or single precision keep them, the same faces in the same order, each with its normal. More generally a file in any of the three formats (text, little-endian, big-endian) with vertices followed by polygons of at most three corners gives exactly the vertices named by the properties x, y, z - at whatever place among other properties and of whatever number type - and exactly the triangles listed; comment lines, further properties and further elements do not matter. Where it goes wrong: a polygon of n corners gives n-2 triangles that all share its first side, so with four or more corners the surface is not oriented and part of a square is not covered; without a property z (or x, y) the first number of the row is taken; a polygon naming a vertex that is not there, or standing before the vertices, is undefined behaviour; twelve properties or six elements are refused, as are headers without an end and lists among the properties of vertices, edges and materials; a grid with list types that differ is read over with the wrong size; the list types of a later element are applied to the polygons.", "quantifier": "all polyhedra; all files with any numbers of rows, any admissible properties in any order, any number types, any comments, any pieces after the end, all polygons", "why_tests_cant": "A test reads a few files of one writer. That every order and type of properties and all numbers of rows keep the reader in step with the file is an induction over header lines and rows; the triangulation error is invisible with meshes of triangles.", "anchors": ["include/zeo/zeo_ph3d.h: zPH3DReadFilePLY, zPH3DWriteFilePLY_ASCII, zPH3DWriteFilePLY_Bin", "src/zeo_ph3d_ply.c 1-652"]}
{"id": "C83", "title": "OBJ files: triangles after their vertices are read exactly; larger faces, relative numbers and other orders are not", "statement": "zPH3DReadFileOBJ applied to a file in which every face has three corners and stands behind the vertices it names gives exactly the vertices of the file in their order and one face for each face line with exactly those corners and the right normal, whether corners are written 3, 3/4, 3//5 or 3/4/5 and whatever other lines there are. In any file whose faces name vertices of the file each face line gives exactly one triangle of its first three corners, a missing corner being the first vertex of the file and a missing coordinate zero. Where it goes wrong: a face of four or more corners loses all corners but three, so part of a square is not covered; a face that stands before its vertices has a normal computed from memory that has not been written; a vertex number that is zero, too large, or negative (the relative numbers of the format) is undefined behaviour.", "quantifier": "all files of any number of lines in any order, all corner words made of decimal numerals of any length with any text after a slash, all contents of fresh memory", "why_tests_cant": "Test files come from one exporter with triangles after vertices. That all interleavings of vertices, faces and other lines and all numerals are read right is an induction over lines and digits; the wrong normals depend on the content of fresh memory.", "anchors": ["include/zeo/zeo_ph3d.h: zPH3DReadFileOBJ", "src/zeo_ph3d_obj.c 1-139"]}
{"id": "C84", "title": "PCD point clouds: columns in any order and type are read right; binary files gain a point, compressed ones lose all", "statement": "What zVec3DDataWritePCDFile writes is read back by zVec3DDataReadPCDFile: unchanged from a binary file, with what ten digits keep from a text. Of any file with a complete header (keys in the order of the format, VERSION, COUNT, VIEWPOINT and POINTS being optional, comments anywhere) the points are those of the rows with finite x, y, z, whatever other columns there are and whatever their order, type and size, each turned by the (normalised) quaternion and moved to the place of the viewpoint, at most WIDTH*HEIGHT of them. Where it goes wrong: a binary file has a further point at the place of the viewpoint if one of its points is not finite; so has a text for each empty line; a quaternion of zero puts all points on the viewpoint; a compressed file is read successfully but gives no point; an unknown key, a key behind a later one and a header without TYPE are undefined behaviour; a binary file without FIELDS is read for ever.", "quantifier": "all files with any number of columns, rows, comments and bytes, all words made of decimal numerals of any length, all codes of floating-point numbers by bytes, all results of the decompression", "why_tests_cant": "Test files have the columns x y z of single precision and finite points. That all orders and sizes of columns stay in step is an induction over columns and rows; the additional point needs a row that is not finite and an end of file that is noticed one row late.", "anchors": ["include/zeo/zeo_vec3d_pcd.h: zVec3DDataReadPCDFile, zVec3DDataWritePCDFile", "src/zeo_vec3d_pcd.c 1-653"]}
{"id": "C85", "title": "Linear scale factors: coordinates of a point over a triangle; outside, the nearest point unless an angle is obtuse", "statement": "Let a triangle have no negligible side and no angle whose squared sine is below the tolerance, and let a point lie over the point of its plane with coordinates s0, s1, s2 (sum one) with respect to the corners. If no coordinate is negative zTri3DLinScale gives exactly s0, s1, s2, returns 0 and sets the closest point to the given point (which need not be on the plane). If one coordinate is negative it gives the non-negative factors of the nearest point of the triangle, that point and its distance. If two are negative it gives the corner between the two sides and the distance to it; this is the nearest point if the angle there is not obtuse. For every triangle with an obtuse angle there are points of its plane for which the corner is returned though another point of the triangle is nearer.", "quantifier": "all triangles of the stated shape, all points of space", "why_tests_cant": "Points drawn at random near an acute triangle show nothing wrong; that the result is the nearest of infinitely many points, for all triangles, and that each obtuse triangle has wrong points, are statements about all reals.", "anchors": ["include/zeo/zeo_elem3d.h: zTri3DLinScale", "src/zeo_elem3d.c 401-467", "include/zeo/zeo_elemxd.h 157-220"]}
{"id": "C86", "title": "Map files: what a node shows is stored, what it has learnt is not; nets hide failures", "statement": "An elevation map with a non-empty grid, a resolution that is not negligible, an ordered height range and a gradient threshold that is a cosine, written by zTerraFPrintZTK, is read back by zTerraFromZTK with the same region, grid, thresholds, and the same height, normal, variance and flag at every node; written again it gives the same file. More generally, lines of nodes may come in any order and number after the head: a node shows its last line, nodes without a line are level. The planes and covariances of the nodes are not stored: on a map read from a file zTerraZ gives 0 wherever it gives a height with positive variances, zTerraCheckTravs refuses every node whose height exceeds the residual threshold, and updates fit the new points only. If the size stands before origin and resolution the upper bounds of the region are 0. Nodes outside the grid, negligible resolutions and empty grids are refused; so are maps without a known type. A net of such maps is read back by zMapNetFromZTK; but if one map of the file is refused the reader reports success, with that map unfinished and all later ones empty. A file without maps is refused.", "quantifier": "all elevation maps of any size with the stated conditions, all sequences of node lines, all nets of maps, all files with a refused map at any place", "why_tests_cant": "A test that writes a map and compares heights and normals passes; that the height function of every reloaded map vanishes, that every order of node lines gives the last one, and that failures anywhere in a net are hidden, are statements about all maps and files.", "anchors": ["include/zeo/zeo_map_terra.h: zTerraFromZTK, zTerraFPrintZTK, zTerraZ, zTerraCheckTravs", "include/zeo/zeo_map.h: zMapFromZTK, zMapFPrintZTK", "include/zeo/zeo_mapnet.h: zMapNetFromZTK, zMapNetFPrintZTK", "src/zeo_map_terra.c 295-421", "src/zeo_map.c", "src/zeo_mapnet.c"]}
{"id": "C87", "title": "Fit of a sphere: exact for points of a sphere, stationary otherwise, undetermined for points in a plane", "statement": "Let zSphere3DFit be given points that are not all in one plane, and let the linear systems be solved with least squared error. If the points lie on a sphere then after at least one step the centre is right within half the tolerance in each coordinate, whatever the number of steps; from some number of steps on the iteration stops by itself, and then the radius is right within twice the tolerance. For any such points, if the iteration stops by itself with a radius other than zero, the derivative of the sum of (squared distance - squared radius)^2 in every direction of centre and radius is at most four times the tolerance times the size of the direction and of the points. If all points are in one plane (for example on a circle) no system of the iteration has full rank: the step is not determined. Without points the mean distance is 0/0.", "quantifier": "all point lists, all spheres, all numbers of steps, all least-squares solvers", "why_tests_cant": "A fit can be tried on some spheres; that it converges for every sphere and every set of points not in one plane, at what accuracy it stops, and that it stops only at stationary points for arbitrary data, are statements about all reals and all numbers of iterations.", "anchors": ["include/zeo/zeo_shape3d_sphere.h: zSphere3DFit", "src/zeo_shape3d_sphere.c 60-102"]}
{"id": "C88", "title": "COLLADA files: meshes of triangles are read; what is done with placements", "statement": "Let a COLLADA document hold named meshes (position sources of three columns in any order, groups of triangles with any number of inputs per corner) and a scene of nodes with placements (matrix, translate, rotate, scale), each node showing at most one mesh. Then zPH3DReadFileDAE returns exactly the points of all meshes in order, each mesh moved by the last node that shows it (unmoved if there is none), and exactly the triangles of all groups in order, each with the normal of its corners; this does not depend on how the XML macro treats failures nor on what was in memory. The placements of a node without matrix act as all moves last and the others in the reverse of the order that COLLADA prescribes; a matrix drops what precedes it and acts transposed. So a node is placed as the standard says if its moves come first and its turns and scales commute, and a lone matrix just if it is symmetric; two turns, a turn before a move, a turn before a scale are placed wrongly. A polygon of four corners becomes a face that is never created. A file without COLLADA root or without library_geometries makes the reader destroy a list that was never made; a library without geometry returns a null pointer.", "quantifier": "all documents of the described form, all points, triangles, placements and nodes, both treatments of failures", "why_tests_cant": "A sample file shows one arrangement of columns, inputs, nodes and placements. That all documents of this form are read exactly, in which order placements act in general, and for which matrices the result agrees with the standard are statements over all documents.", "anchors": ["include/zeo/zeo_ph3d.h: zPH3DReadFileDAE", "src/zeo_ph3d_dae.c 1-541"]}
{"id": "C89", "title": "The power method finds a dominant eigenvalue, and when its answer is something else", "statement": "Let a matrix stretch three unit vectors at right angles by the factors l1, l2, l3, with l1 greater in magnitude than the others, and let the random start s satisfy c*|s| <= |u1.s| with 4*zTOL <= |l1|*c. Then from some number of steps on zMat3DEigPower stops by itself and returns a value within 2*zTOL/c of l1, and a vector that differs from a unit vector by at most 4*zTOL/|l1|, whose image is the value times the vector up to 4*zTOL, and whose components along the other two directions are at most 7*zTOL/g where g bounds the gap from l1 to the other factors. For any matrix and start, where it stops by itself the value is the Rayleigh quotient of a unit vector that is an eigenvector up to the tolerance; then the value is within 2*zTOL of one of the factors. zMat3DEigPowerInv finds in the same way the factor of least magnitude of a well-conditioned matrix; with a factor 0 it has no answer (it divides by 0 or uses a matrix that was never written). A start along any eigenvector returns its factor in one step, dominant or not, and for factor 0 a null vector; with factors 1 and -1 the answer may be a number (3/5) that is no factor, whatever the number of steps, and nothing reports it.", "quantifier": "all matrices with orthogonal eigenvectors, all starts that lean to the dominant direction, all numbers of steps from some number on; for the stop, all matrices", "why_tests_cant": "The start is random and the number of steps depends on the ratio of the factors, so a test run shows convergence for one start of one matrix. That every start leaning to the dominant direction is settled, how near the answer is, and that no number of steps helps for opposite factors are statements on all starts and unbounded iterations.", "anchors": ["src/zeo_mat3d.c:879-910", "include/zeo/zeo_mat3d.h:841-865"]}
{"id": "C90", "title": "Files of spline surfaces: what is written is read back, what is refused, and curves", "statement": "Let a rational spline surface have positive degrees along both axes and as many knots as its degrees and control points ask for, and let the ZM library read back the knot vectors it writes. Then zNURBS3DFromZTK reads from what zNURBS3DFPrintZTK wrote a surface with the same degrees, knots, slices and control points with weights, hence with the same point for all parameters. More generally, a section whose lines are well formed and in which no control point precedes the first size line is accepted just if both axes have at least two more knots than control points; the degree is the number of knots less the number of control points less one, the first line counts for knots, size and slices, the last line for each control point, unknown keys are skipped, and nothing depends on what was in memory except for control points without a line. Control points before the size line or outside of the net are refused; without the knots of an axis nothing is accepted. A file without a size line is accepted as a surface without control points, which has no point at all. Every curve that zNURBS3D1Alloc makes (degree 0 along the first axis) is written but refused by the reader.", "quantifier": "all surfaces, all sections of well-formed lines in any order, all contents of memory, all parameters", "why_tests_cant": "A file shows one surface with one order of lines. That degrees recomputed from counts agree for every surface, that the order and repetition of lines do not matter beyond the stated rules, and that no curve at all can be read back are statements on all files and all surfaces.", "anchors": ["src/zeo_nurbs3d.c:255-353", "include/zeo/zeo_nurbs3d.h:219-223"]}
{"id": "C91", "title": "Penetration depth: the returned points lie in the two sets and their difference is the least displacement that separates them", "statement": "Let two finite sets of points overlap so that zGJK's search ends with a tetrahedron, let differences of their points be identical or at least the tolerance apart and of length at most M, and let zVec3DDataConvexHull return, for lists of four or more distinct differences, a triangulated surface of their hull without slivers. Then zGJKDepth returns true with a point c1 of the convex hull of the first set and a point c2 of the convex hull of the second, such that the second set moved by c1 - c2 overlaps the first by at most 4e-12 M in that direction, while after every shorter displacement, in whatever direction, the hulls still have a common point. The same holds for any start from which distinct differences with the origin in their hull were collected. For one point against a set without four points nearly in a plane, slivers or points closer than the tolerance, nothing has to be assumed of the hull: with the modelled zVec3DDataConvexHull the result holds whenever the search ends with a tetrahedron, it ends so if the point is in the hull of the set and more than 1e-6 + 6e-12 M away from every triangle with corners in the set, and for sets of at most 40 cm it always ends. The loop ends for whatever hull after at most one round more than there are pairs of points, and with more steps allowed the result is the same. Started from an edge, which is where the search ends if the origin lies on a line between two differences, the code may collect one point twice; then it can return true with a second point that is a metre away from the second set, and points whose difference does not separate the sets. Where false is returned, the points are those of zGJK.", "quantifier": "all finite sets of points, all starts with distinct collected points, all hull functions that are right on distinct differences, all directions of displacement", "why_tests_cant": "A test can compare one depth with a known one, but that no shorter displacement in any of infinitely many directions separates the sets, for all shapes, and that the expanding loop ends for all sets, cannot be tested.", "anchors": ["src/zeo_col_gjk.c:214-425", "src/zeo_col_gjk.c:477-484", "include/zeo/zeo_col_gjk.h"]}
{"id": "C92", "title": "Penetration depth by portal refinement: moving the second set by the depth along the direction separates the sets, only just, but not always by the least displacement", "statement": "If zMPRDepth returns true for two finite sets of points with differences of length at most M, then dir is a unit vector and depth is positive (or both are zero, for sets that touch in a point within the tolerance), the second set moved by depth times dir overlaps the first by at most 2e-12 along some direction, and a displacement within 6e-12 (M + 1) of it leaves a common point of the convex hulls. The displacement is, up to 8e-24 M squared in the square of its length, the point nearest to the origin in a triangle of three differences that no difference is beyond by more than the tolerance, or a single outermost difference. pos is half way between the same combination of points of both hulls; with a centre that was not shifted the two are the same point, unless the tetrahedron is flat, where they differ along the normal. True is returned only where zMPR returns true, and false only where zMPR returns false or the rounds of the last loop are used up; more rounds do not change the result. The depth is not always the least one: it can be ten where a displacement by one separates the sets.", "quantifier": "all finite sets of points, all numbers of rounds", "why_tests_cant": "A test compares the depth of a few shapes with known values; that the displacement separates whatever two sets of points are given, and stays within the bound, is a statement over all sets and all paths of the refinement.", "anchors": ["src/zeo_col_mpr.c:149-330", "include/zeo/zeo_col_mpr.h"]}
{"id": "C93", "title": "Lists of shapes: last in, first out, and queries to what is left", "statement": "Starting from an empty list of shapes and after any sequence of zShape3DListPush and zShape3DListPop, a pop returns exactly the shape of the latest push that no pop has taken back, and leaves the list as it was before that push; if every push was taken back, a pop returns NULL and later calls behave as on a new list. Every sequence of calls in which no pop returns NULL leaves a definite sequence of shapes. zShape3DListClosest on such a list returns the least of the distances of the shapes left, with the closest point of the latest pushed shape among those with that distance; it is defined exactly if there is a shape and the query is defined for each of them. The distance is the same as that zMultiShape3DClosest gives for an array of the same shapes. zShape3DListContigVert on polyhedra, the latest of which has a vertex, returns a vertex nearest to the point among all vertices of all polyhedra and its distance; with no shape at all or with a shape that is no polyhedron the behaviour is undefined.", "quantifier": "all sequences of pushes and pops, all shapes, all points", "why_tests_cant": "Tests push and pop a few shapes; that the order is kept for all interleavings, and which of several equally distant shapes answers, is settled only for all histories.", "anchors": ["src/zeo_shape3d_list.c:10-71", "include/zeo/zeo_shape3d_list.h:14-49"]}

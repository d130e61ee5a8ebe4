# Formal model of zeo in Rocq: design

Target: the C library zeo (3D geometry: vectors, matrices, attitudes, frames,
primitives, shapes, meshes, search trees, colours, terrain maps).  The code is
read as text; nothing is compiled or run.

Contents: 1 how the code is modelled; 2 trusted base; 3 properties, models and
proofs; 4 what is modelled and what is not, file by file; 5 assumptions of each
theorem; 6 findings; 7 mutation tests.

Files under `rocq/theories`: `Base.v` (reals, tolerance), `Spec*.v` (vocabulary of
the statements, independent of the model), `Model*.v` (the C functions, by name, each
with file and lines), `Facts*.v` (proofs), `Props*.v` (the theorems `Cnn_*`, each
with `Print Assumptions`, and examples that meet the hypotheses).

## 1. How the code is modelled

* `double` is idealised as a mathematical real (`R` of the Coq standard library).
  Rounding, overflow, NaN and signed zeros are not modelled.  Algorithms that
  only compare and copy coordinates (boxes, bounding boxes, clamps, container
  operations) compute the same on finite doubles.
* A C function that writes through a pointer becomes a function returning the
  new value.  A function that may fail (returns `NULL`, `false`, or an error
  value and leaves its output unwritten) returns `option`, or a pair of return
  value and output whose old content is passed in.
* Where the C text would evaluate `x/0`, read an uninitialised object or index
  out of bounds, the model either returns an explicit "undefined" outcome or the theorem carries
  the hypothesis that excludes it; Coq's convention `x/0 = 0` is never used as
  evidence.
* Objects that may be passed twice (aliasing) are modelled by a small memory of
  cells (`ModelAlias.v`), with assignments executed in the order of the C text.
  Only C19 deals with aliasing; elsewhere arguments are distinct objects.
* Loops over lists/arrays are structural recursion; loops without an a-priori
  bound take fuel and return an explicit out-of-fuel outcome.  Where a theorem says
  that a result is obtained, it states that enough fuel exists.
* Memory allocation succeeds.
* ZM/ZEDA (the author's base libraries) are not part of the repo.  Their macros
  (`zIsTiny`, `zIsTol`, `zTOL`, `zSqr`, `zLimit`, `zMin/zMax`, `zSinCos`, list,
  array and tree macros) are modelled from their documented meaning:
  `zIsTol(x,tol)` is `|x| < tol`, `zTOL = 1e-12` (only `0 < zTOL < 1e-6` is used
  in most proofs).  ZEDA lists are given as Coq lists in the order of
  `zListCellNext`, from the tail to the head; a list of addresses is a list of the
  objects addressed unless stated otherwise.

Choices of single models, each also stated in the file:

| model | choice |
|-------|--------|
| matrices | `zMat3D` has `e[column][row]`; the model keeps the three columns |
| `ModelMat` eigenvalues | Jacobi sweeps with a limit |
| `ModelPower` | the random start of the power method (zRandF of ZM) and the limit of steps (ZITERINIT) are arguments |
| `ModelTree` (kd-tree) | bounds and distances may be infinite (`option R`); an empty tree is a root whose point was never written |
| `ModelOctree` | `_norm`, `_ncov` (normal estimation) left out |
| `ModelData` | pointers to elements are the elements |
| `ModelCol` | comparisons as on numbers; where a NaN would be compared the outcome is "undefined" |
| `ModelBall` | the recursive variants return NaN or NULL explicitly |
| `ModelHull` | the quicksort of ZEDA is a parameter `sorts` that returns a sorted permutation |
| `ModelClip` | vertices are followed by value; coinciding vertices of a loop are not told apart.  `ModelPrism` follows their numbers |
| `ModelShape` (ellipses, ellipsoids) | the numerical root finder of ZM is a parameter; theorems assume `exact_solver` |
| `ModelGJK` | a point set is the list of its members; a support function returns a member |
| `ModelNurbs` | knots and basis functions (Cox-de Boor) of ZM are modelled after their definition; the search for a knot span is a parameter `finds` |
| `ModelBrep` | cells live at addresses that are never reused; a freed cell stays unreadable |
| `ModelColor` | the text of a number is read back as the same number; a ZTK file is its list of keys and values |
| `ModelTerra` | `floor` is exact, `int` is unbounded |
| `ModelZtk` and readers built on it | a ZTK file is a list of sections with a tag and of lines with a key and tokens; the loops of ZEDA over tags and keys (number of times a key is evaluated, counting of tags, zArrayFindName, the name "(noname)", ZTKDouble and ZTKInt returning 0 at the end of a line) are modelled after their definition; an array allocated with 0 elements has a null buffer |
| `ModelIsec` | zGJKDepth and zVec3DDataConvexHull are parameters; C79_hull connects the latter with `ModelQH` |
| `ModelQH`, `ModelDel`, `ModelVor` | objects in list cells have addresses that are never reused; a freed or null address is undefined |
| `ModelStl` | a binary file is its bytes, a text its words (zFToken, zFDouble of ZEDA are not modelled); a float goes through a code of four bytes; printed digits denote the number `pr x`; little-endian host |
| `ModelPly` | a file is the lines of its header, in words, and what follows in numbers or bytes; the division into lines and words (fgets; zSToken, zSInt, zFInt, zFDouble of ZEDA) is not modelled; little-endian host; unsigned byte, word and dword |
| `ModelObj` | a file is its lines in words (fgets, zSTokenSkim and atof are not modelled); atoi on unbounded integers |
| `ModelPcd` | a file is its lines in words, or bytes; a word carries the number that atof makes of it; commas are blanks to zSToken; NaN and infinity are `None`; rounding to float (`rnd`) and lzf_decompress (`lzf`) are parameters; zAlloc of no element gives NULL |
| `ModelMap` | the lines of a map as above; printed numbers are read back as the same numbers |
| `ModelFit` | zLESolveErrorMin of ZM returns a least-squares solution (parameter); zVecIsTiny is elementwise; the limit of steps is an argument |
| `ModelDae` | the tree built by libxml2 is given; zXMLFindNodeElement searches among siblings; the parameter of zXMLCheckElementAndExec is taken either way; zSTokenSkim never returns NULL; counts are not negative |
| `ModelNuf` | knot vectors are written and read by ZM (zVecFPrint, zVecFromZTK: parameters that are inverse to each other); sizes that are not positive and negative numbers of slices are left out |
| `ModelDepth` | zVec3DDataConvexHull is a parameter; a hull without faces, or with a face that is one point, is left out |
| `ModelDepthQH` | the parameter of `ModelDepth` filled with the modelled zVec3DDataConvexHull of `ModelQH` |
| `ModelMPR` | the loops of the portal search without a bound have a fuel argument, the rounds of the last loop are a parameter; depth, pos and dir are not NULL |
| `ModelShapeList` | a pointer to a shape is its shape; freeing of cells and printing are left out |
| `ModelColPH` | zColChkPH3D: zGJK of `ModelGJK` on the vertices |
| winding number (C56) | the inside of a polygon is defined by half-open crossings of a ray |

## 2. Trusted base

* Coq 8.16.1 kernel, with its virtual machine (`vm_compute`, used for some concrete
  witnesses; `native_compute` is not used).
* The reading of the C text (every definition cites file and lines), and the
  meaning of the ZM/ZEDA macros given above.
* The standard-library axioms of the classical reals, functional
  extensionality and classical logic, exactly as listed by `Print Assumptions`
  (section 5).  They come from `Reals` and from lemmas of Coquelicot that use
  the same standard-library axioms; no axiom of another library is used.
* No axiom is added, no kernel check is switched off, there is no `Admitted`,
  no functor, no module type.

## 3. Properties, models and proofs

See `properties.jsonl` for full statements and `MANIFEST.json` for the theorems
of each property.

| id | model | proof |
|----|-------|-------|
| C01 | names as strings, `zAxisFromStr` as list search, `zDirRev` with its arithmetic on Z | case analysis; general lemma on list search |
| C02 | `zVec2DNormalize`, `zVec3DNormalize`, old output passed in | algebra of sqrt |
| C03 | `zVec3DProj` ... `zVec3DOrthonormalSpace` with tolerance branches | ring/field, case analysis on the tolerance |
| C04 | `zVec3DRot`, `zMat3DFromAA` | ring modulo unit axis and cos2+sin2 |
| C05 | `zMat3DInv`, adjugate, balancing solve, 2D | field |
| C06 | the same, with division by zero explicit | every singular matrix is a witness |
| C07, C08 | `FromZYX/ToZYX`, `FromZYZ/ToZYZ`, `atan2` defined over `atan` | polar decomposition lemma of atan2, orthonormality |
| C09 | `FromAA/ToAA` | Rodrigues formula; skew part is 2 sin(angle) axis |
| C10 | `zMat3DFromEP`, `zMat3DToEP`, `zEPMul` ... | four branches, orthonormality |
| C11 | `zEPInterDiv` | trigonometric identities |
| C12 | rate conversions; the specification is the derivative of the matrix entries (`derivable_pt_lim`) | calculus and ring |
| C13 | `RotRPYSC` in place | ring |
| C14-C16 | frames, 6D vectors | matrix algebra |
| C17 | `zMat6D` as four 3x3 blocks; the specification is entrywise 6x6 | case analysis on indices, ring |
| C18 | 2D frames and coordinates | ring and trigonometry |
| C19 | memory model of aliased calls | computation; equality characterised by overlap |
| C20 | one Jacobi rotation and the loop with fuel | trigonometry, induction on sweeps, off-diagonal norm as measure |
| C21-C23 | `elemxd`, `elem2d`, `elem3d` closest points; specification: convex combinations, minimal distance | variational inequality; exit-facet argument |
| C24-C26 | lines, planes, centres | field algebra, sums of squares |
| C27-C32 | boxes, spheres, collision tests; specification: point sets | order reasoning, separating axes |
| C33-C35 | solid shapes in axis-aligned decomposition | Cauchy-Schwarz, variational inequality |
| C36-C38 | polyhedra as lists of triangles | edge cancellation over permutations, induction |
| C39-C41 | index arithmetic of mesh generators on nat | multiset of directed edges, induction, lia |
| C42-C43 | containers as state machines | refinement to a sequence |
| C44-C45 | kd-tree as inductive tree with regions | region invariant by induction over insertions, pruning lemma |
| C46-C47 | octree | invariant by induction on depth; refutation by witness |
| C48 | PCA sums over lists | induction; Jacobi result of C20 |
| C49-C50 | colours, optical information | case analysis, field/lra |
| C51 | recursive least squares of a terrain cell | invariant of the inverse covariance, normal equations |
| C52-C53 | plane and triangle intersection routines | case analysis, lra/nra; refutations by witness |
| C54-C55 | bounding balls, planar convex hull | invariants; termination measure |
| C56 | ear clipping; specification: winding number | induction on the loop; barycentric coordinates |
| C57 | boundary representation with heap of cells | invariant of references; cancellation of edge runs through 27 cases of a cut face |
| C58 | sets of shapes | induction on lists, minima |
| C59 | GJK, Minkowski portal refinement | supporting planes, Caratheodory-free convex combinations |
| C60 | rational splines and their shapes | partition of unity, convex hull, trigonometric nets |
| C61 | view frames | orthonormality |
| C62 | 6x6 construction and printing | computation |
| C63 | ellipses, ellipsoids, elliptic cylinders, with exact solver | variational inequality in scaled coordinates |
| C64 | convex polyhedra queries | half-spaces, exit-facet argument |
| C65 | mass properties of solids; the specification is by integrals | Coquelicot integrals |
| C66-C67 | angles, attitude errors and integration | atan2 lemmas, Rodrigues formula |
| C68 | orthonormalisation | Gram-Schmidt |
| C69 | linear operations | ring |
| C70 | prisms and pyramids on vertex numbers | permutation of directed sides over the ears; area and volume by telescoping sums; half-spaces |
| C71 | files as lists of bytes or words, four-byte code (Flocq binary32 as instance), uninitialised memory as a parameter | invariant over registered corners, kd-tree facts of C44, byte arithmetic |
| C72 | oriented bounding box with the hull polyhedron as a parameter; specification: extents along directions | rotating calipers: first constraint to become tight, quotient of quadratics; half-planes |
| C73 | singular value decomposition and the loop over two containers; specification: agreement, misfit and spread of point lists | orthonormal expansion, Cauchy-Schwarz, a Sylvester equation with a positive matrix; determinants |
| C74 | loops over containers with the vicinity searches of C45 and C46; specification: unit, outward, flattest direction | fold over points, results of C45, C46 and C48, monotonicity in the limit |
| C75 | rounds over an arbitrary sequence of random numbers; specification: selected points near the target | invariant over the points of a round, induction over rounds, results of C44 and C73 |
| C76 | the whole quickhull: memory of facets with contiguity and flags, horizon walk, assignment of outside points, discarding, conversion; specification: hull surface | invariant over rounds (closed oriented mesh, supporting facets, every point beneath all facets or in an outside set), no closed cap of visible facets, one horizon loop, measure: number of outside points |
| C77 | the triangulation with its memory of triangles, neighbour pointers, stack of pairs, outer triangle; specification: empty circles, no overlap, completeness | invariant over flips (mesh of darts with local and global conditions), termination by the number of triangles without the new point, local legality implies global (lifting argument), covering by perturbation |
| C78 | cells, nodes and the reordering of the loops in place, on top of the triangulation of C77; specification: closed polygon, half-planes, nearest site | the triangles around a point form one cycle (extremal slope argument and non-overlap), reordering of a cyclic list, a quadratic identity for half-planes |
| C79 | base point, dual transformation with its clamp, two hulls as a parameter; specification: half-spaces, convex hull | polarity: both inclusions by separating planes, boundedness gives positive heights |
| C80 | the key tables of shapes and of the eight kinds, readers and writers of vectors, matrices, frames; sections are lists of keys with values (ZEDA's tokeniser and key loop are assumptions); specification: storable shapes, frames made by placing keys | key loop lemmas (foreign keys are skipped, occurrence counts), simulation of the loop with and without placing keys, invariant on filled face slots |
| C81 | textures, the loop over sections of a file, arrays filled by occurrence, copies with pointers into the copy or the original; specification: named, storable, attached objects | slot-filling invariant of the section loop, C80 for each shape with the array as far as it is filled, C50 for optical properties |
| C82 | header lines as words, rows as numbers of a text or bytes, both passes over the polygons; specification: an independent description of a file by elements, properties and rows, and what its pieces denote | induction over properties, rows and elements; the reader stays in step with the pieces |
| C83 | lines as vertices, faces and others, corner words as characters with atoi; specification: decimal numerals, polygons and vertices of a file | induction over lines with the array split into what is written and fresh memory |
| C84 | header keys in order, columns with types and sizes, rows as words or bytes, the array of fixed size, the frame of the viewpoint; specification: an independent description of header and rows and the points they denote | induction over columns (the reader stays in step) and rows; array fill with a fixed capacity |
| C85 | zTri3DLinScale with the choice of the nearest corner, the two-by-two system and both fallbacks; specification: coordinates of the foot of a point, nearest points | the system solved for each corner; a point is nearest if it sees no corner on the side of the given point |
| C86 | keys of map sections with zTerraAlloc and zTerraAdjustMax, the type key, the loop over sections of a net; specification: lines of nodes, the last line for a node, what a cell shows | evaluation of the head; induction over lines; C51 for heights and traversability of the map read back |
| C87 | zSphere3DFit with barycentre, mean distance, the system of each step and the stop test; specification: least squares, deviation from a sphere, derivative | unique solution of a consistent system; Heron's iteration for the radius; normal equations of a least-squares solution |
| C88 | all functions of the DAE reader over an XML tree, with undefined behaviour for lists never made and null pointers; specification: documents of meshes and nodes, placements as the standard has them | induction over children of each element; a frame stands for the map done so far |
| C89 | zMat3DEigPower and zMat3DEigPowerInv, the random start and the number of steps as parameters; specification: eigenvectors at right angles with their factors | coordinates along the eigenvectors shrink geometrically against the dominant one; Rayleigh quotient |
| C90 | the key handlers of zNURBS3DFromZTK, the degrees computed from counts, zNURBS3DFPrintZTK; knot vectors read and written by ZM as parameters; specification: well-formed lines, the first line of a key, the last line for a control point | each key sets one component (one lemma for all keys); induction over lines |
| C91 | zGJKDepth with the collected list, the face nearest to the origin, the support beyond it and the pair from the weights; the hull is a parameter, in C91_point, C91_inside and C91_small the modelled zVec3DDataConvexHull; specification: surface of a hull, least displacement that separates | a ball around the origin fits inside the surface up to the nearest face; the new support is known or added (a list of pairs not yet collected shrinks) |
| C92 | zMPRDepth with the refined portal, the nearest point of a triangle and of its edges, the contact point; the number of rounds is a parameter; specification: separating and touching displacements, nearest point of a triangle up to a bound | completing the square over the triangle and leaving it through its border; linear relation of four vectors; slots are points of the sets by induction over rounds |
| C93 | zShape3DList: push, pop, zShape3DListClosest, zShape3DListContigVert over histories of calls; specification: balanced histories and what they leave over | induction on histories; the queries reduce to those of arrays (C58), ties by induction on the list |

## 4. What is modelled

For every source file: functions and function-like macros with a definition in the
model (under the same name, or under the lines cited in the comment of a definition);
variants (in-place forms `...DRC`, and macros with a leading underscore) of modelled functions, which compute the same when
arguments do not overlap (C19 treats overlap); and everything else, which is not
modelled.  Printing, scanning, ZTK input and output, memory management and the
dispatch tables of the shape classes are not modelled unless listed.  Accessors of
structure members (`z...SetPos`, `z...Vert` and the like) are the projections of records in the model.

* `include/zeo/zeo_brep.h`: 2 of 2. Modelled: zBREPVertListCellInit, zBREPEdgeListCellInit.
* `include/zeo/zeo_bvxd_boundingball.h`: 2 of 2. Modelled: _zBoundingBallNextAction, _zBoundingBallSetAction.
* `include/zeo/zeo_coord2d.h`: 3 of 22. Modelled: zCoord2DCascadeDRC. Variants: _zCoord2DMul, _zCoord2DMulDRC. Not modelled: zCoord2DX, zCoord2DY, zCoord2DPos, zCoord2DAngle, zCoord2DSetPos, zCoord2DSetAngle, zCoord2DPhaseNormalize, _zCoord2DEqual, _zCoord2DIsTol, _zCoord2DIsTiny, zCoord2DIsTiny, _zCoord2DCopy, _zCoord2DAdd, _zCoord2DSub, _zCoord2DCat, _zCoord2DAddDRC, _zCoord2DSubDRC, _zCoord2DCatDRC, zCoord2DPrint.
* `include/zeo/zeo_elem2d.h`: 0 of 16. Not modelled: zLine2DOrg, zLine2DDir, zLine2DSetOrg, zLine2DSetDir, zEdge2DVert, zEdge2DVec, zEdge2DSetVert, zEdge2DSetVec, zEdge2DLen, zEdge2DDir, zEdge2DPrint, zTri2DVert, zTri2DSetVert, zTri2DVertNext, zTri2DInit, zTri2DPrint.
* `include/zeo/zeo_elem2d_box.h`: 3 of 9. Modelled: zAABox2DCenter, zAABox2DDistFromPoint. Variants: zAABox2DExpandDRC. Not modelled: zAABox2DXMin, zAABox2DYMin, zAABox2DXMax, zAABox2DYMax, zAABox2DDepth, zAABox2DWidth.
* `include/zeo/zeo_elem2d_disk.h`: 0 of 8. Not modelled: zDisk2DCenter, zDisk2DRadius, zDisk2DSetCenter, zDisk2DSetRadius, zEllips2DCenter, zEllips2DRadius, zEllips2DSetCenter, zEllips2DSetRadius.
* `include/zeo/zeo_elem3d.h`: 3 of 26. Modelled: zEdge3DVec, zTri3DToPlane3D. Variants: zTri3DFlipDRC. Not modelled: zLine3DOrg, zLine3DDir, zLine3DSetOrg, zLine3DSetDir, zEdge3DVert, zEdge3DSetVert, zEdge3DSetVec, zEdge3DLen, zEdge3DDir, zEdge3DPrint, zPlane3DOrg, zPlane3DNorm, zPlane3DSetOrg, zPlane3DSetNorm, zPlane3DInit, zPlane3DPrint, zTri3DNorm, zTri3DVert, zTri3DVertNext, zTri3DSetNorm, zTri3DSetVert, _zTri3DCopy, zTri3DPrint.
* `include/zeo/zeo_elem3d_box.h`: 19 of 26. Modelled: zAABox3DDepth, zAABox3DWidth, zAABox3DHeight, zAABox3DCenter, zAABox3DExpandDRC, zAABox3DDistFromPoint, zBox3DSpan, zBox3DDepth, zBox3DWidth, zBox3DHeight, zBox3DCenter, zBox3DAxis, zBox3DSetSpan, zBox3DSetDepth, zBox3DSetWidth, zBox3DSetHeight, zBox3DSetCenter, zBox3DSetAxis, zBox3DCreateAlign. Not modelled: zAABox3DXMin, zAABox3DYMin, zAABox3DZMin, zAABox3DXMax, zAABox3DYMax, zAABox3DZMax, zAABox3DListDestroy.
* `include/zeo/zeo_elem3d_list.h`: 1 of 4. Modelled: zLoop3DAdd. Not modelled: zLoop3DCreate, zLoop3DDestroy, zTri3DListDestroy.
* `include/zeo/zeo_elem3d_sphere.h`: 6 of 6. Modelled: zSphere3DCenter, zSphere3DRadius, zSphere3DDiv, zSphere3DSetCenter, zSphere3DSetRadius, zSphere3DSetDiv.
* `include/zeo/zeo_elemxd.h`: 4 of 8. Modelled: zLineXDOrg, zLineXDDir, zLineXDSetOrg, zLineXDSetDir. Not modelled: zEdgeXDVert, zEdgeXDVec, zEdgeXDSetVert, zEdgeXDSetVec.
* `include/zeo/zeo_ep.h`: 5 of 8. Modelled: zEPCatDRC. Variants: zEPAddDRC, zEPSubDRC, zEPRevDRC, zEPMulDRC. Not modelled: zEPIdent, _zEPCopy, zEPPrint.
* `include/zeo/zeo_frame2d.h`: 7 of 18. Modelled: _zXform2D, _zXform2DInv, _zFrame2DInv, _zFrame2DCascade, _zFrame2DXform. Variants: zXform2DDRC, zXform2DInvDRC. Not modelled: zFrame2DPos, zFrame2DAtt, zFrame2DVec, zFrame2DSetPos, zFrame2DSetAtt, _zFrame2DCopy, zFrame2DIdent, _zFrame2DEqual, _zFrame2DIsIdent, zFrame2DScan, zFrame2DPrint.
* `include/zeo/zeo_frame3d.h`: 7 of 19. Modelled: _zXform3D, _zXform3DInv, _zFrame3DInv, _zFrame3DCascade, _zFrame3DXform. Variants: zXform3DDRC, zXform3DInvDRC. Not modelled: zFrame3DPos, zFrame3DAtt, zFrame3DVec, zFrame3DSetPos, zFrame3DSetAtt, _zFrame3DCopy, zFrame3DIdent, _zFrame3DMatch, _zFrame3DEqual, _zFrame3DIsIdent, zFrame3DScan, zFrame3DPrint.
* `include/zeo/zeo_map_terra.h`: 6 of 10. Modelled: zTerraCellZ, zTerraGridNC, zTerraX, zTerraY, zTerraSetTravsThreshold, zTerraAdjustMax. Not modelled: zTerraXSize, zTerraYSize, zTerraAdjustZRange, zMapTerra.
* `include/zeo/zeo_mapnet.h`: 0 of 1. Not modelled: zMapNetMap.
* `include/zeo/zeo_mat2d.h`: 32 of 51. Modelled: _zMat2DCreate, _zMat2DRow, zMat2DCol, _zMat2DT, _zMat2DTDRC, _zMat2DAdd, _zMat2DSub, _zMat2DRev, _zMat2DMul, _zMat2DCat, _zMat2DDyad, _zMat2DDet, _zMat2DAdj, _zMulMat2DVec2D, _zMulMat2DVec2DDRC, _zMulMat2DTVec2D, _zMulMat2DTVec2DDRC, _zMulAdjMat2DVec2D, _zMat2DAngle, _zMat2DRotSC, _zMat2DError. Variants: _zMat2DAddDRC, _zMat2DSubDRC, _zMat2DMulDRC, _zMat2DDivDRC, zMat2DAddDRC, zMat2DSubDRC, zMat2DMulDRC, zMat2DDivDRC, zMulMat2DMat2DDRC, zMulMat2DTMat2DDRC, zMulMat2DMat2DTDRC. Not modelled: zMat2DVec, _zMat2DCopy, zMat2DZero, zMat2DIdent, _zMat2DMatch, _zMat2DEqual, _zMat2DIsIdent, _zMat2DIsTol, _zMat2DIsTiny, zMat2DIsTiny, _zMat2DRevDRC, _zMat2DCatDRC, zMat2DRevDRC, zMat2DCatDRC, _zMat2DSqrNorm, _zMat2DNorm, zMat2DNorm, zMat2DScan, zMat2DPrint.
* `include/zeo/zeo_mat3d.h`: 48 of 64. Modelled: zMat3DVec, _zMat3DCreate, _zMat3DRow, _zMat3DT, _zMat3DTDRC, _zMat3DAdd, _zMat3DSub, _zMat3DRev, _zMat3DMul, _zMat3DCat, _zMat3DAddDRC, zMat3DAddDRC, _zMat3DSubDRC, zMat3DSubDRC, _zMat3DRevDRC, zMat3DRevDRC, _zMat3DMulDRC, zMat3DMulDRC, zMat3DDivDRC, _zMat3DCatDRC, zMat3DCatDRC, _zMat3DDyad, _zMat3DAddDyad, _zMat3DSubDyad, _zVec3DOuterProdToMat3D, _zVec3DTripleProdToMat3D, _zVec3DDoubleOuterProdToMat3D, _zMat3DCatVec3DDoubleOuterProd, _zMat3DSqrNorm, _zMat3DDet, _zMulMat3DVec3D, _zMulMat3DTVec3D, _zMat3DEigMinID. Variants: _zMat3DCopy, _zMat3DCatVec3DDoubleOuterProdDRC, zMat3DCatVec3DDoubleOuterProdDRC, zMulVec3DOuterProdMat3DDRC, zMat3DOrthonormalizeDRC, _zMulMat3DVec3DDRC, _zMulMat3DTVec3DDRC, zMulMat3DMat3DDRC, zMulMat3DTMat3DDRC, zMulMat3DMat3DTDRC, zMulMat3DVec6DDRC, zMulMat3DTVec6DDRC, zRotMat3DDRC, zRotMat3DInvDRC, zMat3DRotDRC. Not modelled: zMat3DZero, zMat3DIdent, _zMat3DMatch, _zMat3DEqual, _zMat3DIsIdent, _zMat3DIsTol, _zMat3DIsTiny, zMat3DIsTiny, zMat3DCol, _zMat3DSymmetrize, zMat3DSymmetrizeDRC, _zMat3DIsSymmetric, _zMat3DNorm, zMat3DNorm, zMat3DScan, zMat3DPrint.
* `include/zeo/zeo_mat6d.h`: 11 of 13. Modelled: _zMat6DCreate, zMat6DPutMat3D, _zMat6DZero, _zMat6DT, _zMat6DAdd, _zMat6DSub, _zMat6DMul, _zMat6DDyad. Variants: _zMat6DAddDRC, _zMat6DSubDRC, _zMat6DMulDRC. Not modelled: _zMat6DCopy, zMat6DPrint.
* `include/zeo/zeo_multishape3d.h`: 0 of 21. Not modelled: zMultiShape3DShapeArray, zMultiShape3DShapeNum, zMultiShape3DShapeBuf, zMultiShape3DShape, zMultiShape3DSetShapeNum, zMultiShape3DSetShapeBuf, zMultiShape3DOpticArray, zMultiShape3DOpticNum, zMultiShape3DOpticBuf, zMultiShape3DOptic, zMultiShape3DSetOpticNum, zMultiShape3DSetOpticBuf, zMultiShape3DTextureArray, zMultiShape3DTextureNum, zMultiShape3DTextureBuf, zMultiShape3DTexture, zMultiShape3DSetTextureNum, zMultiShape3DSetTextureBuf, zMultiShape3DAllocOpticArray, zMultiShape3DAllocTextureArray, zMultiShape3DAllocShapeArray.
* `include/zeo/zeo_nurbs3d.h`: 36 of 36. Modelled: zNURBS3DOrder, zNURBS3DKnotNum, zNURBS3DKnot, zNURBS3DSetKnot, zNURBS3DKnotS, zNURBS3DKnotE, zNURBS3DKnotSlice, zNURBS3DSlice, zNURBS3DSetSlice, zNURBS3DCPNum, zNURBS3DWeight, zNURBS3DSetWeight, zNURBS3DCP, zNURBS3DSetCP, zNURBS3D1KnotNum, zNURBS3D1Knot, zNURBS3D1SetKnot, zNURBS3D1KnotS, zNURBS3D1KnotE, zNURBS3D1KnotSlice, zNURBS3D1Slice, zNURBS3D1SetSlice, zNURBS3D1CPNum, zNURBS3D1Weight, zNURBS3D1SetWeight, zNURBS3D1CP, zNURBS3D1SetCP, zNURBS3D1Alloc, zNURBS3DKnotNormalize, zNURBS3D1KnotNormalize, zNURBS3DKnotScale, zNURBS3D1KnotScale, zNURBS3D1Vec, zNURBS3DVecTan, zNURBS3DVecNorm, zNURBS3D1VecTan.
* `include/zeo/zeo_ph3d.h`: 12 of 16. Modelled: zPH3DVertBuf, zPH3DVert, zPH3DSetVertNum, zPH3DSetVertBuf, zPH3DFaceArray, zPH3DFaceNum, zPH3DFaceBuf, zPH3DFace, zPH3DSetFaceNum, zPH3DSetFaceBuf, zPH3DFaceVert, zPH3DFaceNorm. Not modelled: zPH3DVertArray, zPH3DVertNum, zPH3DEchoOn, zPH3DEchoOff.
* `include/zeo/zeo_render_color.h`: 3 of 8. Modelled: zRGBIsZero, zGS, zGSSet. Not modelled: _zRGBCopy, zRGB2fv, zRGBScan, zRGBPrint, zHSVPrint.
* `include/zeo/zeo_render_optic.h`: 2 of 3. Modelled: zOpticalInfoCreateSimple, zOpticalInfoInit. Not modelled: zOpticalInfoDestroy.
* `include/zeo/zeo_render_texture.h`: 1 of 13. Modelled: zTextureInit. Not modelled: zTextureCoordNum, zTextureCoordBuf, zTextureCoord, zTextureFaceNum, zTextureFace, zTextureFaceCoord, zTextureSetReadFunc, zTextureReadFuncIsAssigned, zTextureReadFile, zTextureSetBumpReadFunc, zTextureBumpReadFuncIsAssigned, zTextureBumpReadFile.
* `include/zeo/zeo_shape3d.h`: 1 of 5. Modelled: zShape3DContigVert. Not modelled: zShape3DOptic, zShape3DSetOptic, zShape3DTexture, zShape3DSetTexture.
* `include/zeo/zeo_shape3d_box.h`: 0 of 1. Not modelled: zShape3DBox.
* `include/zeo/zeo_shape3d_capsule.h`: 15 of 16. Modelled: zCapsule3DCenter, zCapsule3DRadius, zCapsule3DDiv, zCapsule3DSetCenter, zCapsule3DSetRadius, zCapsule3DSetDiv, zCapsule3DCreate, zCapsule3DInit, zCapsule3DAlloc, zCapsule3DCopy, zCapsule3DMirror, zCapsule3DXform, zCapsule3DXformInv, zCapsule3DAxis, zCapsule3DBarycenter. Not modelled: zShape3DCapsule.
* `include/zeo/zeo_shape3d_cone.h`: 10 of 10. Modelled: zCone3DCenter, zCone3DVert, zCone3DRadius, zCone3DDiv, zCone3DSetCenter, zCone3DSetVert, zCone3DSetRadius, zCone3DSetDiv, zCone3DAxis, zShape3DCone.
* `include/zeo/zeo_shape3d_cyl.h`: 8 of 8. Modelled: zCyl3DCenter, zCyl3DRadius, zCyl3DDiv, zCyl3DSetCenter, zCyl3DSetRadius, zCyl3DSetDiv, zCyl3DAxis, zShape3DCyl.
* `include/zeo/zeo_shape3d_ecyl.h`: 10 of 10. Modelled: zECyl3DCenter, zECyl3DRadius, zECyl3DRadVec, zECyl3DDiv, zECyl3DSetCenter, zECyl3DSetRadius, zECyl3DSetRadVec, zECyl3DSetDiv, zECyl3DAxis, zShape3DECyl.
* `include/zeo/zeo_shape3d_ellips.h`: 16 of 16. Modelled: zEllips3DRadius, zEllips3DRadiusX, zEllips3DRadiusY, zEllips3DRadiusZ, zEllips3DCenter, zEllips3DAxis, zEllips3DDiv, zEllips3DSetRadius, zEllips3DSetRadiusX, zEllips3DSetRadiusY, zEllips3DSetRadiusZ, zEllips3DSetCenter, zEllips3DSetAxis, zEllips3DSetDiv, zEllips3DCreateAlign, zShape3DEllips.
* `include/zeo/zeo_shape3d_list.h`: 0 of 7. Not modelled: zShape3DListCellShape, zShape3DListCellOptic, zShape3DListCellSetShape, zShape3DListCellInit, zShape3DListDestroy, zShape3DListCellPrintZTK, zShape3DListPrintZTK.
* `include/zeo/zeo_shape3d_nurbs.h`: 0 of 1. Not modelled: zShape3DNURBS.
* `include/zeo/zeo_shape3d_ph.h`: 0 of 9. Not modelled: zShape3DPH, zShape3DVertNum, zShape3DVertBuf, zShape3DVert, zShape3DFaceNum, zShape3DFaceBuf, zShape3DFace, zShape3DFaceVert, zShape3DFaceNorm.
* `include/zeo/zeo_shape3d_sphere.h`: 0 of 1. Not modelled: zShape3DSphere.
* `include/zeo/zeo_vec2d.h`: 24 of 40. Modelled: _zVec2DCreate, _zVec2DIsTol, zVec2DIsTiny, zVec2DOuterProdNorm, zVec2DNorm, zVec2DDist, _zVec2DRot90CW, _zVec2DRot90CCW. Variants: _zVec2DIsTiny, _zVec2DAdd, _zVec2DSub, _zVec2DRev, _zVec2DMul, _zVec2DCat, _zVec2DAddDRC, _zVec2DSubDRC, _zVec2DRevDRC, _zVec2DMulDRC, _zVec2DCatDRC, _zVec2DInnerProd, _zVec2DOuterProd, _zVec2DSqrNorm, zVec2DNormalizeNCDRC, zVec2DNormalizeDRC. Not modelled: _zVec2DCopy, _zVec2DZero, zVec2DZero, _zVec2DCreatePolar, _zVec2DMatch, _zVec2DEqual, _zVec2DAmp, _zVec2DDem, _zVec2DAmpDRC, _zVec2DDemDRC, zVec2DScan, zVec2DValuePrint, zVec2DValueNLPrint, zVec2DPrint, zVec2DArrayAlloc, zVec2DArrayFree.
* `include/zeo/zeo_vec2d_data.h`: 0 of 10. Not modelled: zVec2DDataDestroy, zVec2DDataSize, zVec2DDataCapacity, zVec2DDataIsEmpty, zVec2DDataAdd, zVec2DDataRewind, zVec2DDataPeek, zVec2DDataFetch, zVec2DDataPrint, zVec2DDataValuePrint.
* `include/zeo/zeo_vec2d_list.h`: 0 of 6. Not modelled: zVec2DListDestroy, zVec2DListPrint, zVec2DListValuePrint, zVec2DAddrListDestroy, zVec2DAddrListPrint, zVec2DAddrListValuePrint.
* `include/zeo/zeo_vec3d.h`: 36 of 44. Modelled: _zVec3DCreate, _zVec3DZero, zVec3DZero, _zVec3DMatch, _zVec3DEqual, _zVec3DIsTol, _zVec3DIsTiny, zVec3DIsTiny, _zVec3DAdd, _zVec3DSub, _zVec3DRev, _zVec3DMul, _zVec3DAmp, _zVec3DDem, _zVec3DCat, _zVec3DAddDRC, _zVec3DSubDRC, _zVec3DRevDRC, _zVec3DMulDRC, _zVec3DAmpDRC, _zVec3DDemDRC, _zVec3DCatDRC, _zVec3DInnerProd, _zVec3DOuterProd, _zVec3DTripleProd, _zVec3DSqrNorm, _zVec3DNorm, zVec3DNorm, _zVec3DWSqrNorm, _zVec3DWNorm, zVec3DWNorm, zVec3DDist, zVec3DNormalizeNCDRC, zVec3DNormalizeDRC, _zVec3DInterDiv, _zVec3DMid. Not modelled: _zVec3DCopy, zAA2AngleAndAxis, zVec3DScan, zVec3DValuePrint, zVec3DValueNLPrint, zVec3DPrint, zVec3DArrayAlloc, zVec3DArrayFree.
* `include/zeo/zeo_vec3d_data.h`: 2 of 10. Modelled: zVec3DDataAdd, zVec3DDataFetch. Not modelled: zVec3DDataDestroy, zVec3DDataSize, zVec3DDataCapacity, zVec3DDataIsEmpty, zVec3DDataRewind, zVec3DDataPeek, zVec3DDataPrint, zVec3DDataValuePrint.
* `include/zeo/zeo_vec3d_list.h`: 0 of 6. Not modelled: zVec3DListDestroy, zVec3DListPrint, zVec3DListValuePrint, zVec3DAddrListDestroy, zVec3DAddrListPrint, zVec3DAddrListValuePrint.
* `include/zeo/zeo_vec3d_octree.h`: 3 of 3. Modelled: zVec3DOctantPointIsInside, zVec3DOctantIsSmallest, zVec3DOctreeSetResolution.
* `include/zeo/zeo_vec6d.h`: 17 of 35. Modelled: _zVec6DAdd, _zVec6DSub, _zVec6DRev, _zVec6DMul, _zVec6DCat, _zVec6DInnerProd. Variants: _zVec6DAddDRC, zVec6DAddDRC, _zVec6DSubDRC, zVec6DSubDRC, _zVec6DRevDRC, zVec6DRevDRC, _zVec6DMulDRC, zVec6DMulDRC, zVec6DDivDRC, _zVec6DCatDRC, zVec6DCatDRC. Not modelled: zVec6DLin, zVec6DAng, zVec6DSetLin, zVec6DSetAng, _zVec6DCreate, _zVec6DFromVec3D, _zVec6DCopy, _zVec6DZero, zVec6DZero, _zVec6DMatch, _zVec6DEqual, _zVec6DIsTol, _zVec6DIsTiny, zVec6DIsTiny, zVec6DScan, zVec6DValuePrint, zVec6DValueNLPrint, zVec6DPrint.
* `include/zeo/zeo_vec6d_list.h`: 0 of 3. Not modelled: zVec6DListDestroy, zVec6DListPrint, zVec6DListValuePrint.
* `include/zeo/zeo_vecxd_data.h`: 8 of 10. Modelled: zVecXDDataDestroy, zVecXDDataSize, zVecXDDataCapacity, zVecXDDataIsEmpty, zVecXDDataAdd, zVecXDDataRewind, zVecXDDataPeek, zVecXDDataFetch. Not modelled: zVecXDDataPrint, zVecXDDataValuePrint.
* `include/zeo/zeo_vecxd_list.h`: 1 of 6. Modelled: zVecXDAddrListDestroy. Not modelled: zVecXDListDestroy, zVecXDListPrint, zVecXDListValuePrint, zVecXDAddrListPrint, zVecXDAddrListValuePrint.
* `include/zeo/zeo_voronoi2d.h`: 1 of 1. Modelled: zDelaunayTri2DListDestroy.
* `src/zeo_brep.c`: 9 of 9. Modelled: zBREPVertListFind, _zBREPVertListFindnReg, zBREPEdgeListFind, _zBREPEdgeListFindnReg, _zBREPFaceInsert, zPH3D2BREP, zPH3D2BREPInBox, zBREP2PH3D, zBREPDestroy.
* `src/zeo_brep_bool.c`: 4 of 4. Modelled: zBREPMerge, zPH3DTruncBREP, zIntersectPH3DBREP, zIntersectPH3DBREPFast.
* `src/zeo_brep_trunc.c`: 10 of 10. Modelled: _zBREPTruncBBCheck, _zBREPTruncIntersect, _zBREPTruncFaceA, _zBREPTruncFaceV, _zBREPTruncFaceE, _zBREPTruncEdgeShrink, _zBREPTruncGR, _zBREPTruncFace, zBREPTrunc, zBREPTruncPH3D.
* `src/zeo_bv2d_aabb.c`: 2 of 2. Modelled: _zAABB2DTest, zVec2DDataAABB.
* `src/zeo_bv2d_boundingball.c`: 4 of 4. Modelled: _zBoundingBall2DTest2, _zBoundingBall2DTest3, _zBoundingBall2D3, _zBoundingBall2DDirect.
* `src/zeo_bv2d_convexhull.c`: 6 of 6. Modelled: _zConvexHull2DBase, _zConvexHull2D, _zConvexHull2DToPH3D, zVec3DDataConvexHull2D, zVec3DDataConvexHull2DPH3D, zConvexHull2DClosest.
* `src/zeo_bv3d_aabb.c`: 3 of 4. Modelled: _zAABB3DInc, zVec3DDataAABB, zVec3DDataAABBXform. Not modelled: _zAABB3DTest.
* `src/zeo_bv3d_boundingball.c`: 5 of 5. Modelled: _zBoundingBall3DTest2, _zBoundingBall3DTest3, _zBoundingBall3DTest4, _zBoundingBall3D4, _zBoundingBall3DDirect.
* `src/zeo_bv3d_convexhull.c`: 23 of 30. Modelled: _zQHPointCreate, _zQHFacetCreate, _zQHFacetDestroy, _zQHFacetContig, _zQHFacet2Tri3D, _zQHFacetOn, _zQHFacetListDestroy, _zQHSimplexVert, _zQHSimplex, _zQHFacetTestBeneathBeyond, _zQHFacetAssign, _zQHMerge, _zQHFacetResetFlag, _zQHVisibleSet, _zQHFacetContigID, _zQHFacetBind, _zQHHorizonNewFacet, _zQHHorizon, _zQHInc, _zQHDiscard, _zQHCreate, _zQH2PH3D, zVec3DDataConvexHull. Not modelled: _zQHDestroy, _zQHFacetInfo, _zQHFacetListInfo, _zQHPointListPrint, _zQHFacetListPrint, _zQHPrint, _zQHPrint2.
* `src/zeo_bv3d_obb.c`: 4 of 4. Modelled: _zOBB3DMinDir, _zOBB3DRect, _zOBB3DMaxDir, zVec3DDataOBB.
* `src/zeo_col.c`: 9 of 9. Modelled: zColChkEdgePlane3D, zIntersectEdgePlane3D, zIntersectPlane3D, zColChkTriPlane3D, zIntersectTriPlane3D, zColChkEdgeTri3D, zIntersectEdgeTri3D, zColChkTri3D, zIntersectTri3D.
* `src/zeo_col_box.c`: 20 of 21. Modelled: _zIntersectPlaneAABox3DEdge, zColChkPlaneAABox3D, zIntersectPlaneAABox3D, _zColChkTriAABox3DEdgeAxOne, _zColChkTriAABox3DEdgeAx, _zColChkTriAABox3DEdge, _zColChkTriAABox3DPlane, zColChkTriAABox3D, _zIntersectTriAABox3DEdgeAx, _zIntersectTriAABox3DEdge, _zIntersectTriAABox3DPlane, zIntersectTriAABox3D, zColChkAABox3D, zIntersectAABox3D, zIntersectPH3DBox, _zColChkBox3DAlong, _zColChkBox3DPerp, zColChkBox3D, zColChkSphereAABox3D, zColChkSphereBox3D. Not modelled: _zIntersectTriAABox3DEdgeAxOne.
* `src/zeo_col_gjk.c`: 20 of 26. Modelled: _zGJKSlotInit, _zGJKSimplexInit, _zGJKSimplexCheckDupSlot, _zGJKSimplexAddSlot, _zGJKSimplexClosest, _zGJKSupportMap, _zGJKPair, _zGJKPH3DClosest, _zGJKSlotListInsert, _zGJKPDAddPoint, _zGJKPDInit, _zGJKPDInitSimplex3D, _zGJKPD, _zGJKCheck, _zGJK, zGJK, zGJKDepth, _zGJKPointSupportMap, _zGJKPointClosest, zGJKPoint. Not modelled: _zGJKSlotPrint, _zGJKSlotVertFPrint, _zGJKSimplexYPrint, _zGJKSimplexWPrint, _zGJKSimplexYVertFPrint, _zGJKSimplexWVertFPrint.
* `src/zeo_col_minkowski.c`: 0 of 1. Not modelled: zVec3DDataMinkowskiSub.
* `src/zeo_col_mpr.c`: 15 of 15. Modelled: _zMPRSupportMap, _zMPROrigin, _zMPRSimplexDir, _zMPRFindPortal, _zMPRPortalDir, _zMPRPortalIsReached, _zMPRExpandPortal, _zMPRRefinePortal, _zMPRDepthPair, _zMPRCalcSegDist, _zMPRCalcDepth, _zMPRDepth, zMPR, zMPRDepth, _zMPRSlotCopy.
* `src/zeo_col_ph.c`: 6 of 6. Modelled: zColChkPH3D, _zTri3DDualXform, _zTri3DDualXform_a, _zTri3DDualXform_b, _zIntersectPH3DPointIsInside, zIntersectPH3D.
* `src/zeo_coord2d.c`: 7 of 18. Modelled: zCoord2DMul, zCoord2DDiv, zCoord2DInterDiv, zCoord2DXform, zCoord2DCascade. Variants: zCoord2DMulDRC, zCoord2DDivDRC. Not modelled: zCoord2DCreate, zCoord2DCopy, zCoord2DEqual, zCoord2DIsTol, zCoord2DAdd, zCoord2DSub, zCoord2DCat, zCoord2DAddDRC, zCoord2DSubDRC, zCoord2DCatDRC, zCoord2DFPrint.
* `src/zeo_elem2d.c`: 5 of 7. Modelled: zIntersectLine2D, _zTri2DClosestFromOrigin_TestEdge, zTri2DClosestFromOrigin, zTri2DClosest, _zTri2DWeightedCenter. Not modelled: zTri2DCreate, zTri2DFPrint.
* `src/zeo_elem2d_box.c`: 10 of 15. Modelled: zAABox2DCreate, zAABox2DCreateFromSize, zAABox2DMerge, zAABox2DExpand, zAABox2DClosest, zAABox2DSqrDistFromPoint, zAABox2DPointIsInside, zAABox2DArea, zAABox2DVert, zAABox2DEnlarge. Not modelled: zAABox2DInit, zAABox2DEqual, zAABox2DCopy, zAABox2DFPrint, zAABox2DValueFPrint.
* `src/zeo_elem2d_disk.c`: 8 of 10. Modelled: zDisk2DDistFromPoint, zDisk2DPointIsInside, zDisk2DFrom2, zDisk2DFrom3, zEllips2DClosest, zEllips2DDistFromPoint, zEllips2DPointIsInside. Variants: _zEllips2DClosest. Not modelled: zDisk2DCreate, zEllips2DCreate.
* `src/zeo_elem3d.c`: 35 of 38. Modelled: zLine3DCommonPerpEnd, zLine3DCommonPerp, zDistLine3DLine3D, zPlane3DCreate, zPlane3DDistFromPoint, zPlane3DPointIsOn, zPlane3DProjPoint, zTri3DInit, zTri3DCreate, zTri3DCreateFlip, zTri3DFlip, _zTri3DOuterProd, zTri3DArea, zTri3DCalcNorm, zTri3DDistFromPointToPlane, zTri3DProjPoint, zTri3DPointIsOnPlane, _zTri3DProjIsInside, _zTri3DClosestFromOrigin_TestEdge, zTri3DClosestFromOrigin, zTri3DClosest, zTri3DSignedClosest, zTri3DSignedDistFromPoint, _zTri3DLinScaleVal, _zTri3DLinScaleDeg2, _zTri3DLinScaleDeg1, zTri3DLinScale, zTri3DConeVolume, zTri3DConeBarycenter, zTri3DConeInertia, zTri3DConeCircumcenter, _zTetra3DClosestFromOrigin_TestTri, zTetra3DClosestFromOrigin, zTetra3DClosest, _zTri3DWeightedCenter. Not modelled: zPlane3DFPrint, zTri3DCopy, zTri3DFPrint.
* `src/zeo_elem3d_box.c`: 29 of 32. Modelled: zAABox3DInit, zAABox3DCreate, zAABox3DCreateFromSize, zAABox3DEqual, zAABox3DCopy, zAABox3DMerge, zAABox3DExpand, zAABox3DClosest, zAABox3DSqrDistFromPoint, zAABox3DPointIsInside, zAABox3DVolume, zAABox3DVert, zAABox3DEnlarge, zAABox3DListAdd, zBox3DCreate, zBox3DInit, zBox3DCopy, zBox3DMirror, zBox3DXform, zBox3DXformInv, zBox3DClosest, zBox3DDistFromPoint, zBox3DPointIsInside, zBox3DVolume, zBox3DBaryInertiaMass, zBox3DBaryInertia, zBox3DVert, zAABox3DToBox3D, zBox3DToAABox3D. Not modelled: zAABox3DFPrint, zAABox3DValueFPrint, zBox3DValueFPrint.
* `src/zeo_elem3d_list.c`: 7 of 8. Modelled: zTri3DListAlign, zTri3DListCopyArray, _zLoop3DTriangulateNorm, _zLoop3DTriangulateCheck, _zLoop3DTriangulate, zLoop3DTriangulate, zTriangulate. Not modelled: zTri3DListAdd.
* `src/zeo_elem3d_sphere.c`: 15 of 15. Modelled: zSphere3DCreate, zSphere3DInit, zSphere3DCopy, zSphere3DMirror, zSphere3DXform, zSphere3DXformInv, zSphere3DClosest, zSphere3DDistFromPoint, zSphere3DPointIsInside, zSphere3DFrom2, zSphere3DFrom3, zSphere3DFrom4, zSphere3DVolume, zSphere3DBaryInertiaMass, zSphere3DBaryInertia.
* `src/zeo_ep.c`: 22 of 24. Modelled: zEPCreate, zEPCreateAA, zEPIsIdent, zEP2AA, zAA2EP, zMat3DFromEP, zMat3DToEP, zEPRotVec3D, zEPVel2AngVel, zAngVel2EPVel, zEPAdd, zEPSub, zEPRev, zEPMul, zEPCat, zEPDif, zEPInnerProd, zEPNorm, zEPNormalize, zEPCascade, zEPInterDiv, zMat3DInterDiv. Not modelled: zEPCopy, zEPFPrint.
* `src/zeo_frame2d.c`: 8 of 15. Modelled: zFrame2DCreateAngle, zXform2D, zXform2DInv, zFrame2DInv, zFrame2DCascade, zFrame2DXform, zFrame2DFromCoord2D, zCoord2DFromFrame2D. Not modelled: zFrame2DCreate, zFrame2DCopy, zFrame2DEqual, zFrame2DIsIdent, zFrame2DFromZTK, zFrame2DFScan, zFrame2DFPrint.
* `src/zeo_frame3d.c`: 27 of 39. Modelled: zXform3D, zXform3DInv, zFrame3DInv, zFrame3DCascade, zFrame3DXform, zXform6DLin, zXform6DAng, zFrame3DTwist, zFrame3DError, zFrame3DFromPosZYX, zFrame3DFromPosZYZ, zFrame3DFromPosAA, zFrame3DFromDH, zFrame3DTranslateView, zFrame3DRotateView, zFrame3DLookAtView, zFrame3DGazeAndRotateView, zArrayToFrame3DZYX, zVec6DToFrame3DZYX, zFrame3DToVec6DZYX, zVec6DToFrame3DZYZ, zFrame3DToVec6DZYZ, zVec6DToFrame3DAA, zFrame3DToVec6DAA, zFrame3DFromZTK, zFrame3DToZTK, zFrame3DDHFromZTK. Not modelled: zFrame3DCreate, zFrame3DCopy, zFrame3DMatch, zFrame3DEqual, zFrame3DIsIdent, zFrame3DToArrayZYX, zArrayToFrame3DZYZ, zFrame3DToArrayZYZ, zArrayToFrame3DAA, zFrame3DToArrayAA, zFrame3DFScan, zFrame3DFPrint.
* `src/zeo_map.c`: 8 of 8. Modelled: zMapInit, zMapDestroy, _zMapNameFromZTK, _zMapTypeFromZTK, _zMapNameFPrintZTK, _zMapTypeFPrintZTK, zMapFromZTK, zMapFPrintZTK.
* `src/zeo_map_terra.c`: 39 of 45. Modelled: _zTerraCellInit, _zTerraCellResidual, _zTerraCellUpdate, _zTerraCellForm, zTerraGrid, zTerraInit, zTerraLevel, zTerraAlloc, zTerraSetRegion, zTerraAllocRegion, zTerraAllocGrid, _zTerraGetBaseGrid, zTerraUpdate, zTerraForm, zTerraIdent, _zTerraCheckGridTravsRes, _zTerraCheckGridTravs, zTerraCheckTravs, zTerraZRange, _zTerraZGrid, zTerraZ, _zTerraOriginFromZTK, _zTerraResolFromZTK, _zTerraSizeFromZTK, _zTerraZRangeFromZTK, _zTerraVarThrsdFromZTK, _zTerraGrdThrsdFromZTK, _zTerraResThrsdFromZTK, _zTerraGridFromZTK, _zTerraOriginFPrint, _zTerraResolFPrint, _zTerraSizeFPrint, _zTerraZRangeFPrint, _zTerraVarThrsdFPrint, _zTerraGrdThrsdFPrint, _zTerraResThrsdFPrint, zTerraFromZTK, zTerraFPrintZTK, _zTerraUpdate. Not modelled: zTerraDestroy, zTerraDataFPrint, _zMapTerraAlloc, _zMapTerraDestroy, _zMapTerraParseZTK, _zMapTerraFPrintZTK.
* `src/zeo_mapnet.c`: 7 of 8. Modelled: zMapNetInit, zMapNetAlloc, zMapNetDestroy, _zMapNetMapFromZTK, zMapNetFromZTK, zMapNetFPrintZTK, zMapNetReadZTK. Not modelled: zMapNetWriteZTK.
* `src/zeo_mat2d.c`: 27 of 36. Modelled: zMat2DCreate, zMat2DCreateAngle, zMat2DRow, zMat2DT, zMat2DTDRC, zMat2DAdd, zMat2DSub, zMat2DMul, zMat2DDiv, zMat2DDyad, zMat2DDet, zMat2DAdj, zMat2DInv, zMulMat2DVec2D, zMulMat2DTVec2D, zMulMat2DVec2DDRC, zMulMat2DTVec2DDRC, zMulAdjMat2DVec2D, zMulInvMat2DVec2D, zMulMat2DMat2D, zMulMat2DTMat2D, zMulMat2DMat2DT, zMulInvMat2DMat2D, zMat2DAngle, zMat2DRotSC, zMat2DRot, zMat2DError. Not modelled: zMat2DCopy, zMat2DMatch, zMat2DEqual, zMat2DIsIdent, zMat2DRev, zMat2DCat, zMat2DSqrNorm, zMat2DFScan, zMat2DFPrint.
* `src/zeo_mat3d.c`: 94 of 100. Modelled: zMat3DCreate, zMat3DCopy, zMat3DRow, zMat3DT, zMat3DTDRC, zMat3DSymmetrize, zMat3DIsSymmetric, zMat3DAdd, zMat3DSub, zMat3DRev, zMat3DMul, zMat3DDiv, zMat3DCat, zMat3DDyad, zMat3DAddDyad, zMat3DSubDyad, zVec3DOuterProdToMat3D, zVec3DTripleProdToMat3D, zVec3DDoubleOuterProdToMat3D, zMat3DCatVec3DDoubleOuterProd, zMulVec3DOuterProdMat3D, zMat3DSqrNorm, zMat3DIsOrthonormal, zMat3DIsRightHand, zMat3DOrthonormalize, zMat3DAdj, _zMat3DBalancingMinMaxIndex, _zMat3DRowBalancingScale, _zMat3DColBalancingScale, zMat3DDet, _zMat3DInv, zMat3DInv, zMulMat3DVec3D, zMulMat3DTVec3D, zMulMat3DVec3DDRC, zMulMat3DTVec3DDRC, _zMulAdjMat3DVec3DRow, zMulAdjMat3DVec3D, _zMulInvMat3DVec3D, zMulInvMat3DVec3D, zVec3DCatRatio, zMulMat3DMat3D, zMulMat3DTMat3D, zMulMat3DMat3DT, zMulAdjMat3DMat3D, _zMulInvMat3DMat3D, zMulInvMat3DMat3D, zMulMat3DVec6D, zMulMat3DTVec6D, _zMat3DRotRPYSC, _zMat3DRotRPYSCDRC, zMat3DRotRollSC, zMat3DRotRoll, zMat3DRotRollSCDRC, zMat3DRotRollDRC, zMat3DRotPitchSC, zMat3DRotPitch, zMat3DRotPitchSCDRC, zMat3DRotPitchDRC, zMat3DRotYawSC, zMat3DRotYaw, zMat3DRotYawSCDRC, zMat3DRotYawDRC, zMat3DFromZYXSC, zMat3DFromZYX, zMat3DToZYX, zMat3DFromZYZSC, zMat3DFromZYZ, zMat3DToZYZ, zMat3DFromAA, zMat3DToAA, zRotMat3D, zRotMat3DInv, zMat3DRot, zMat3DRotCat, zAACascade, zMat3DError, zAAError, zMat3DDif, zMat3DEigPower, zMat3DEigPowerInv, _zMat3DSymEigRot, zMat3DSymEig, zMat3DSymEigMin, zMat3DSVD, zMat3DFromZTK, zMat3DToZTK, zAAFromZTK, _zMat3DAdjRow, _zMat3DAdj, _zMat3DRowBalancing, _zMat3DColBalancing, _zMulAdjMat3DVec3D, _zMulAdjMat3DMat3D. Not modelled: zMat3DMatch, zMat3DEqual, zMat3DIsIdent, zMat3DIsTol, zMat3DFScan, zMat3DFPrint.
* `src/zeo_mat6d.c`: 19 of 21. Modelled: zMat6DCreate, zMat6DZero, zMat6DT, zMat6DRow, zMat6DCol, zMat6DAdd, zMat6DSub, zMat6DMul, zMat6DDiv, zMat6DAddDRC, zMat6DSubDRC, zMat6DMulDRC, zMat6DDivDRC, zMulMat6DVec6D, zMulMat6DTVec6D, zMulMat6DMat6D, zMulMat6DTMat6D, zMulMat6DMat6DT, zMat6DDyad. Not modelled: zMat6DCopy, zMat6DFPrint.
* `src/zeo_misc.c`: 5 of 5. Modelled: zAxisStr, zAxisFromStr, zDirStr, zDirFromStr, zDirRev.
* `src/zeo_multishape3d.c`: 14 of 20. Modelled: zMultiShape3DInit, zMultiShape3DClone, zMultiShape3DContigVert, zMultiShape3DClosest, zMultiShape3DPointIsInside, zMultiShape3DVertData, zMultiShape3DBoundingBall, zMultiShape3DFromOctree, _zMultiShape3DOpticFromZTK, _zMultiShape3DTextureFromZTK, zMultiShape3DFromZTK, zMultiShape3DFPrintZTK, zMultiShape3DReadZTK, zMultiShape3DWriteZTK. Not modelled: zMultiShape3DDestroy, zMultiShape3DToPH, _zMultiShape3DShapeFromZTK, _zMultiShape3DOpticFPrint, _zMultiShape3DTextureFPrint, _zMultiShape3DShapeFPrint.
* `src/zeo_nurbs3d.c`: 24 of 24. Modelled: zNURBS3DAlloc, zNURBS3DInit, zNURBS3DDestroy, zNURBS3DCopy, zNURBS3DClone, zNURBS3DMirror, zNURBS3DXform, zNURBS3DXformInv, zNURBS3DVec, zNURBS3DVecTSpace, zNURBS3DClosest, zNURBS3DToPH, _zNURBS3DKnotFromZTK, _zNURBS3DUKnotFromZTK, _zNURBS3DVKnotFromZTK, _zNURBS3DSliceFromZTK, _zNURBS3DSizeFromZTK, _zNURBS3DCPFromZTK, _zNURBS3DUKnotFPrint, _zNURBS3DVKnotFPrint, _zNURBS3DSliceFPrint, _zNURBS3DSizeFPrint, zNURBS3DFromZTK, zNURBS3DFPrintZTK.
* `src/zeo_nurbs3d_shape.c`: 9 of 9. Modelled: _zNURBS3DEllipsInitKnot, _zNURBS3DEllipsInitCP, zNURBS3DBox, zNURBS3DEllips, zNURBS3DSphere, zNURBS3DECyl, zNURBS3DCyl, zNURBS3DCone, zNURBS3DTorus.
* `src/zeo_ph3d.c`: 37 of 38. Modelled: zPH3DAllocVert, zPH3DAllocFace, zPH3DAlloc, zPH3DDestroy, zPH3DClone, zPH3DMirror, zPH3DScaleDRC, zPH3DScale, zPH3DFlipDRC, zPH3DFlip, zPH3DXform, zPH3DXformInv, zPH3DContigVert, zPH3DClosest, zPH3DDistFromPoint, zPH3DPointIsInside, zPH3DVolume, zPH3DBarycenter, zPH3DInertia, zPH3DInertiaMass, zPH3DBaryInertia, zPH3DBaryInertiaMass, zPH3DAABB, _zPH3DLoopNext, _zPH3DSweepBottom, zPH3DCreatePrism, zPH3DCreatePyramid, zPH3DCreateTorus, zPH3DCreateLathe, _zPH3DVertFromZTK, _zPH3DFaceFromZTK, _zPH3DLoopArcFromZTK, _zPH3DLoopFromZTK, _zPH3DCreatePrismFromZTK, _zPH3DCreatePyramidFromZTK, zPH3DFromZTK, zPH3DFPrintZTK. Not modelled: zPH3DInit.
* `src/zeo_ph3d_dae.c`: 25 of 26. Modelled: _zDAESrcInit, _zDAESrcFind, _zDAEPrimitiveInit, _zDAEMeshInit, _zDAEMeshListDestroy, _zDAEMeshListFind, _zDAESrcEvalFloatArray, _zDAESrcSetAccessor, _zDAESrcEvalAccessor, _zDAESrcEval, _zDAEEvalURI, _zDAESrcEvalVert, _zDAEPrimitiveEvalFace, _zDAEMeshEval, _zDAEMeshEvalGeometry, _zDAEEvalLibraryGeometries, _zDAEGetXform, _zDAEGetTrans, _zDAEGetRot, _zDAEGetScale, _zDAEEvalXform, _zDAEEvalLibraryVisualScenes, _zDAEEval, _zDAEMeshList2PH3D, zPH3DReadFileDAE. Not modelled: _zDAEMeshDestroy.
* `src/zeo_ph3d_obj.c`: 7 of 7. Modelled: _zOBJCountKey, _zOBJFReadVert, _zOBJFReadFaceIndex, _zOBJFReadFace, _zOBJFReadPH3D, zPH3DFReadOBJ, zPH3DReadFileOBJ.
* `src/zeo_ph3d_ply.c`: 25 of 27. Modelled: zPLY_fread_ASCII_double_int, zPLY_fread_ASCII_double_double, zPLY_fread_ASCII_int_int, zPLY_fread_ASCII_int_double, _zPLYElementInit, _zPLYInit, _zPLYPrpInit, _zPLYPrpFind, _zPLYIsValid, _zPLYFReadFormat, _zPLYFReadElement, _zPLYFReadProperty, _zPLYFReadHeader, _zPH3DSetPLYVert, _zPH3DFReadPLYVert, _zPH3DFReadPLYFace, _zPH3DFReadPLYRangeGrid, _zPH3DFReadPLYElem, _zPH3DFReadPLYData, zPH3DReadFilePLY, _zPH3DFWritePLYHeader, _zPH3DFWritePLYDataASCII, _zPH3DFWritePLYDataBin, zPH3DWriteFilePLY_ASCII, zPH3DWriteFilePLY_Bin. Not modelled: _zPLYElementFPrint, _zPLYFPrint.
* `src/zeo_ph3d_stl.c`: 16 of 16. Modelled: _zSTLVertReg, _zSTLFacetListReg, _zSTLFacetListToTri3DArray, _zSTLToPH3D, _zPH3DFReadSTL_ASCIIfacet, _zPH3DFReadSTL_ASCIIsolid, zPH3DFReadSTL_ASCII, zPH3DFWriteSTL_ASCII, _zPH3DFWriteSTL_BinVec, zSTLIsBin, zPH3DFReadSTL_Bin, zPH3DFWriteSTL_Bin, zPH3DReadFileSTL, zPH3DWriteFileSTL. Variants: _zPH3DFReadSTL_ASCIIloop, _zPH3DFReadSTL_BinVec.
* `src/zeo_render_color.c`: 13 of 17. Modelled: zRGBSet, zRGBToGS, zRGBMul, zRGBBlend, _zRGBRatio, _zRGBHex, zRGBDecodeStr, zRGBByName, zRGBByStr, zRGBFromZTK, zRGBToZTK, zRGB2HSV, zHSV2RGB. Not modelled: zRGBCopy, zRGBFScan, zRGBFPrint, zHSVFPrint.
* `src/zeo_render_optic.c`: 22 of 22. Modelled: zOpticalInfoCreate, zOpticalInfoCopy, zOpticalInfoClone, zOpticalInfoMul, zOpticalInfoBlend, _zOpticalInfoNameFromZTK, _zOpticalInfoAmbientFromZTK, _zOpticalInfoDiffuseFromZTK, _zOpticalInfoSpecularFromZTK, _zOpticalInfoESRFromZTK, _zOpticalInfoShininessFromZTK, _zOpticalInfoAlphaFromZTK, _zOpticalInfoNameFPrintZTK, _zOpticalInfoAmbientFPrintZTK, _zOpticalInfoDiffuseFPrintZTK, _zOpticalInfoSpecularFPrintZTK, _zOpticalInfoESRFPrintZTK, _zOpticalInfoShininessFPrintZTK, _zOpticalInfoAlphaFPrintZTK, zOpticalInfoFromZTK, zOpticalInfoToZTK, zOpticalInfoFPrintZTK.
* `src/zeo_render_texture.c`: 10 of 17. Modelled: zTextureAlloc, zTextureSetFace, zTextureDestroy, zTextureClone, _zTextureNameFromZTK, _zTextureFileFromZTK, _zTextureTypeFPrintZTK, _zTextureDepthFPrintZTK, zTextureFromZTK, zTextureFPrintZTK. Not modelled: zTextureSetCoord, _zTextureTypeFromZTK, _zTextureDepthFromZTK, _zTextureCoordFromZTK, _zTextureFaceFromZTK, _zTextureNameFPrintZTK, _zTextureFileFPrintZTK.
* `src/zeo_shape3d.c`: 40 of 44. Modelled: zShape3DInit, zShape3DQueryAssign, zShape3DDestroy, zShape3DClone, zShape3DMirror, zShape3DXform, zShape3DXformInv, zShape3DClosest, zShape3DDistFromPoint, zShape3DPointIsInside, zShape3DVolume, zShape3DBarycenter, zShape3DBaryInertiaMass, zShape3DBaryInertia, zShape3DInertiaMass, zShape3DInertia, zShape3DToPH, _zShape3DAssignPH, zShape3DPutInOctree, zShape3DReadFileSTL, zShape3DReadFilePLY, zShape3DDivFromZTK, _zShape3DNameFromZTK, _zShape3DTypeFromZTK, _zShape3DOpticFromZTK, _zShape3DTextureFromZTK, _zShape3DMirrorFromZTK, _zShape3DImportFromZTK, _zShape3DPosFromZTK, _zShape3DAttFromZTK, _zShape3DRotFromZTK, _zShape3DFrameFromZTK, _zShape3DNameFPrint, _zShape3DTypeFPrint, _zShape3DOpticFPrint, _zShape3DTextureFPrint, zShape3DFromZTK, zShape3DFPrintZTK, zShape3DReadZTK, zShape3DWriteZTK. Not modelled: zShape3DReadFileOBJ, zShape3DReadFileDAE, _zShape3DReadFileEXT, zShape3DReadFile.
* `src/zeo_shape3d_box.c`: 29 of 37. Modelled: zBox3DToPH, _zBox3DAxisFromZTK, _zBox3DCenterFromZTK, _zBox3DAxisXFromZTK, _zBox3DAxisYFromZTK, _zBox3DAxisZFromZTK, _zBox3DDepthFromZTK, _zBox3DWidthFromZTK, _zBox3DHeightFromZTK, _zBox3DCenterFPrintZTK, _zBox3DAxisXFPrintZTK, _zBox3DAxisYFPrintZTK, _zBox3DAxisZFPrintZTK, _zBox3DDepthFPrintZTK, _zBox3DWidthFPrintZTK, _zBox3DHeightFPrintZTK, zBox3DFPrintZTK, _zShape3DBoxClosest, _zShape3DBoxDistFromPoint, _zShape3DBoxPointIsInside, _zShape3DBoxVolume, _zShape3DBoxBarycenter, _zShape3DBoxBaryInertiaMass, _zShape3DBoxBaryInertia, _zShape3DBoxToPH, _zShape3DBoxParseZTK, _zShape3DBoxFPrintZTK, zShape3DBoxCreate, zShape3DBoxCreateFromAABox. Not modelled: _zShape3DBoxInit, _zShape3DBoxAlloc, _zShape3DBoxClone, _zShape3DBoxMirror, _zShape3DBoxDestroy, _zShape3DBoxXform, _zShape3DBoxXformInv, zShape3DBoxCreateAlign.
* `src/zeo_shape3d_capsule.c`: 16 of 34. Modelled: _zCapsule3DClosestPrep, zCapsule3DClosest, zCapsule3DDistFromPoint, zCapsule3DPointIsInside, zCapsule3DHeight, zCapsule3DVolume, zCapsule3DBaryInertiaMass, zCapsule3DBaryInertia, zCapsule3DToPH, _zCapsule3DCenterFromZTK, _zCapsule3DRadiusFromZTK, _zCapsule3DDivFromZTK, _zCapsule3DCenterFPrintZTK, _zCapsule3DRadiusFPrintZTK, _zCapsule3DDivFPrintZTK, zCapsule3DFPrintZTK. Not modelled: _zShape3DCapsuleInit, _zShape3DCapsuleAlloc, _zShape3DCapsuleClone, _zShape3DCapsuleMirror, _zShape3DCapsuleDestroy, _zShape3DCapsuleXform, _zShape3DCapsuleXformInv, _zShape3DCapsuleClosest, _zShape3DCapsuleDistFromPoint, _zShape3DCapsulePointIsInside, _zShape3DCapsuleVolume, _zShape3DCapsuleBarycenter, _zShape3DCapsuleBaryInertiaMass, _zShape3DCapsuleBaryInertia, _zShape3DCapsuleToPH, _zShape3DCapsuleParseZTK, _zShape3DCapsuleFPrintZTK, zShape3DCapsuleCreate.
* `src/zeo_shape3d_cone.c`: 25 of 42. Modelled: zCone3DCreate, zCone3DInit, zCone3DCopy, zCone3DMirror, zCone3DXform, zCone3DXformInv, zCone3DClosest, zCone3DDistFromPoint, zCone3DPointIsInside, zCone3DHeight, zCone3DVolume, zCone3DBarycenter, zCone3DBaryInertiaMass, zCone3DBaryInertia, zCone3DToPH, _zCone3DCenterFromZTK, _zCone3DVertFromZTK, _zCone3DRadiusFromZTK, _zCone3DDivFromZTK, _zCone3DCenterFPrintZTK, _zCone3DVertFPrintZTK, _zCone3DRadiusFPrintZTK, _zCone3DDivFPrintZTK, zCone3DFPrintZTK, _zShape3DConeParseZTK. Not modelled: _zShape3DConeInit, _zShape3DConeAlloc, _zShape3DConeClone, _zShape3DConeMirror, _zShape3DConeDestroy, _zShape3DConeXform, _zShape3DConeXformInv, _zShape3DConeClosest, _zShape3DConeDistFromPoint, _zShape3DConePointIsInside, _zShape3DConeVolume, _zShape3DConeBarycenter, _zShape3DConeBaryInertiaMass, _zShape3DConeBaryInertia, _zShape3DConeToPH, _zShape3DConeFPrintZTK, zShape3DConeCreate.
* `src/zeo_shape3d_cyl.c`: 24 of 41. Modelled: zCyl3DCreate, zCyl3DInit, zCyl3DCopy, zCyl3DMirror, zCyl3DXform, zCyl3DXformInv, _zCyl3DClosestPrep, zCyl3DClosest, zCyl3DDistFromPoint, zCyl3DPointIsInside, zCyl3DHeight, zCyl3DVolume, zCyl3DBarycenter, zCyl3DBaryInertiaMass, zCyl3DBaryInertia, zCyl3DToPH, _zCyl3DCenterFromZTK, _zCyl3DRadiusFromZTK, _zCyl3DDivFromZTK, _zCyl3DCenterFPrintZTK, _zCyl3DRadiusFPrintZTK, _zCyl3DDivFPrintZTK, zCyl3DFPrintZTK, _zShape3DCylParseZTK. Not modelled: _zShape3DCylInit, _zShape3DCylAlloc, _zShape3DCylClone, _zShape3DCylMirror, _zShape3DCylDestroy, _zShape3DCylXform, _zShape3DCylXformInv, _zShape3DCylClosest, _zShape3DCylDistFromPoint, _zShape3DCylPointIsInside, _zShape3DCylVolume, _zShape3DCylBarycenter, _zShape3DCylBaryInertiaMass, _zShape3DCylBaryInertia, _zShape3DCylToPH, _zShape3DCylFPrintZTK, zShape3DCylCreate.
* `src/zeo_shape3d_ecyl.c`: 26 of 44. Modelled: zECyl3DCreate, zECyl3DInit, zECyl3DMirror, zECyl3DDefAxis, zECyl3DXform, zECyl3DXformInv, zECyl3DClosest, zECyl3DDistFromPoint, zECyl3DPointIsInside, zECyl3DHeight, zECyl3DVolume, zECyl3DBarycenter, zECyl3DBaryInertiaMass, zECyl3DBaryInertia, zCyl3DToECyl3D, zECyl3DToPH, _zECyl3DCenterFromZTK, _zECyl3DRadiusFromZTK, _zECyl3DRefFromZTK, _zECyl3DDivFromZTK, _zECyl3DCenterFPrintZTK, _zECyl3DRadiusFPrintZTK, _zECyl3DRefFPrintZTK, _zECyl3DDivFPrintZTK, zECyl3DFPrintZTK, _zShape3DECylParseZTK. Not modelled: zECyl3DCopy, _zShape3DECylInit, _zShape3DECylAlloc, _zShape3DECylClone, _zShape3DECylMirror, _zShape3DECylDestroy, _zShape3DECylXform, _zShape3DECylXformInv, _zShape3DECylClosest, _zShape3DECylDistFromPoint, _zShape3DECylPointIsInside, _zShape3DECylVolume, _zShape3DECylBarycenter, _zShape3DECylBaryInertiaMass, _zShape3DECylBaryInertia, _zShape3DECylToPH, _zShape3DECylFPrintZTK, zShape3DECylCreate.
* `src/zeo_shape3d_ellips.c`: 34 of 52. Modelled: zEllips3DCreate, zEllips3DInit, zEllips3DCopy, zEllips3DMirror, zEllips3DXform, zEllips3DXformInv, _zEllips3DClosest, zEllips3DClosest, zEllips3DDistFromPoint, zEllips3DPointIsInside, zEllips3DVolume, zEllips3DBaryInertiaMass, zEllips3DBaryInertia, zSphere3DToEllips3D, zEllips3DToPH, _zEllips3DAxisFromZTK, _zEllips3DCenterFromZTK, _zEllips3DAxisXFromZTK, _zEllips3DAxisYFromZTK, _zEllips3DAxisZFromZTK, _zEllips3DRadiusXFromZTK, _zEllips3DRadiusYFromZTK, _zEllips3DRadiusZFromZTK, _zEllips3DDivFromZTK, _zEllips3DCenterFPrintZTK, _zEllips3DAxisXFPrintZTK, _zEllips3DAxisYFPrintZTK, _zEllips3DAxisZFPrintZTK, _zEllips3DRadiusXFPrintZTK, _zEllips3DRadiusYFPrintZTK, _zEllips3DRadiusZFPrintZTK, _zEllips3DDivFPrintZTK, zEllips3DFPrintZTK, _zShape3DEllipsParseZTK. Not modelled: _zShape3DEllipsInit, _zShape3DEllipsAlloc, _zShape3DEllipsClone, _zShape3DEllipsMirror, _zShape3DEllipsDestroy, _zShape3DEllipsXform, _zShape3DEllipsXformInv, _zShape3DEllipsClosest, _zShape3DEllipsDistFromPoint, _zShape3DEllipsPointIsInside, _zShape3DEllipsVolume, _zShape3DEllipsBarycenter, _zShape3DEllipsBaryInertiaMass, _zShape3DEllipsBaryInertia, _zShape3DEllipsToPH, _zShape3DEllipsFPrintZTK, zShape3DEllipsCreate, zShape3DEllipsCreateAlign.
* `src/zeo_shape3d_list.c`: 4 of 6. Modelled: zShape3DListPush, zShape3DListPop, zShape3DListContigVert, zShape3DListClosest. Not modelled: zShape3DListCellFPrintZTK, zShape3DListFPrintZTK.
* `src/zeo_shape3d_nurbs.c`: 0 of 18. Not modelled: _zShape3DNURBSInit, _zShape3DNURBSAlloc, _zShape3DNURBSClone, _zShape3DNURBSMirror, _zShape3DNURBSDestroy, _zShape3DNURBSXform, _zShape3DNURBSXformInv, _zShape3DNURBSClosest, _zShape3DNURBSDistFromPoint, _zShape3DNURBSPointIsInside, _zShape3DNURBSVolume, _zShape3DNURBSBarycenter, _zShape3DNURBSBaryInertiaMass, _zShape3DNURBSBaryInertia, _zShape3DNURBSToPH, _zShape3DNURBSParseZTK, _zShape3DNURBSFPrintZTK, zShape3DNURBSAlloc.
* `src/zeo_shape3d_ph.c`: 0 of 17. Not modelled: _zShape3DPHInit, _zShape3DPHAlloc, _zShape3DPHClone, _zShape3DPHMirror, _zShape3DPHDestroy, _zShape3DPHXform, _zShape3DPHXformInv, _zShape3DPHClosest, _zShape3DPHDistFromPoint, _zShape3DPHPointIsInside, _zShape3DPHVolume, _zShape3DPHBarycenter, _zShape3DPHBaryInertiaMass, _zShape3DPHBaryInertia, _zShape3DPHToPH, _zShape3DPHParseZTK, _zShape3DPHFPrintZTK.
* `src/zeo_shape3d_sphere.c`: 10 of 27. Modelled: zSphere3DToPH, zSphere3DFit, _zSphere3DCenterFromZTK, _zSphere3DRadiusFromZTK, _zSphere3DDivFromZTK, _zSphere3DCenterFPrintZTK, _zSphere3DRadiusFPrintZTK, _zSphere3DDivFPrintZTK, zSphere3DFPrintZTK, _zShape3DSphereParseZTK. Not modelled: _zShape3DSphereInit, _zShape3DSphereAlloc, _zShape3DSphereClone, _zShape3DSphereMirror, _zShape3DSphereDestroy, _zShape3DSphereXform, _zShape3DSphereXformInv, _zShape3DSphereClosest, _zShape3DSphereDistFromPoint, _zShape3DSpherePointIsInside, _zShape3DSphereVolume, _zShape3DSphereBarycenter, _zShape3DSphereBaryInertiaMass, _zShape3DSphereBaryInertia, _zShape3DSphereToPH, _zShape3DSphereFPrintZTK, zShape3DSphereCreate.
* `src/zeo_vec2d.c`: 28 of 41. Modelled: zVec2DIsTol, zVec2DAdd, zVec2DSub, zVec2DRev, zVec2DMul, zVec2DDiv, zVec2DCat, zVec2DInnerProd, zVec2DOuterProd, zVec2DSqrNorm, zVec2DSqrDist, zVec2DNormalizeNC, zVec2DNormalize, zVec2DInterDiv, zVec2DMid, zVec2DAngle, zVec2DProj, zVec2DRot, zVec2DRot90CW, zVec2DRot90CCW, zVec2DFromZTK, zVec2DFPrint. Variants: zVec2DAddDRC, zVec2DSubDRC, zVec2DRevDRC, zVec2DMulDRC, zVec2DDivDRC, zVec2DCatDRC. Not modelled: zVec2DCreate, zVec2DCopy, zVec2DCreatePolar, zVec2DMatch, zVec2DEqual, zVec2DIsNan, zVec2DAmp, zVec2DDem, zVec2DAmpDRC, zVec2DDemDRC, zVec2DFScan, zVec2DValueFPrint, zVec2DValueNLFPrint.
* `src/zeo_vec2d_list.c`: 0 of 1. Not modelled: _zVec2DListQuickSortDefaultCmp.
* `src/zeo_vec3d.c`: 56 of 58. Modelled: zVec3DCreatePolar, zVec3DCopy, zVec3DMatch, zVec3DEqual, zVec3DIsTol, zVec3DIsNan, zVec3DAdd, zVec3DSub, zVec3DRev, zVec3DMul, zVec3DDiv, zVec3DAmp, zVec3DDem, zVec3DCat, zVec3DAddDRC, zVec3DSubDRC, zVec3DRevDRC, zVec3DMulDRC, zVec3DDivDRC, zVec3DAmpDRC, zVec3DDemDRC, zVec3DCatDRC, zVec3DInnerProd, zVec3DOuterProd, zVec3DOuterProdNorm, zVec3DGrassmannProd, zVec3DTripleProd, zVec3DSqrNorm, zVec3DWSqrNorm, zVec3DSqrDist, zVec3DNormalizeNC, zVec3DNormalize, zVec3DInterDiv, zVec3DMid, zVec3DAngle, zVec3DAAError, zVec3DProj, zVec3DOrthonormal, zVec3DOrthogonalize, zVec3DOrthoSpace, zVec3DOrthonormalSpace, zVec3DRot, zVec3DDif, zZYXVelToAngVel, zZYXVelToAngVelSC, zAngVelToZYXVel, zAngVelToZYXVelSC, zZYZVelToAngVel, zZYZVelToAngVelSC, zAngVelToZYZVel, zAngVelToZYZVelSC, zVec3DFromZTK, zVec3DToZTK, zVec3DFScan, zVec3DValueFPrint, zVec3DFPrint. Not modelled: zVec3DCreate, zVec3DValueNLFPrint.
* `src/zeo_vec3d_list.c`: 0 of 1. Not modelled: _zVec3DListQuickSortDefaultCmp.
* `src/zeo_vec3d_octree.c`: 23 of 29. Modelled: _zVec3DOctantSetRegion, _zVec3DOctantInit, _zVec3DOctantAllocSuboctant, _zVec3DOctantAddPoint, _zVec3DOctantDivide, _zVec3DOctantMergeSuboctant, _zVec3DOctantMerge, _zVec3DOctantUnify, _zVec3DOctantFindContainer, _zVec3DOctantToAABox3DList, zVec3DOctreeInit, zVec3DOctreeInitAuto, zVec3DOctreeAddPoint, zVec3DOctreeAddData, zVec3DOctreeChangeResolution, zVec3DOctreeUnifyOctant, zVec3DOctreeFindContainer, _zVec3DOctantLeafNN, _zVec3DOctantNN, zVec3DOctreeNN, _zVec3DOctantVicinity, zVec3DOctreeVicinity, zVec3DOctreeToAABox3DList. Not modelled: _zVec3DOctantDestroy, _zVec3DOctantEstimateNormal, _zVec3DOctantUpdateNormal, zVec3DOctreeDestroy, zVec3DOctreeUpdateNormal, zVec3DDataToOctree.
* `src/zeo_vec3d_pca.c`: 8 of 8. Modelled: zVec3DDataBarycenter, zVec3DDataCov, zVec3DDataBaryCov, zVec3DDataPCA, zVec3DDataBaryPCA, zVec3DDataPCAFrame, zVec3DDataMeanNormal, zVec3DDataMeanPlane.
* `src/zeo_vec3d_pcd.c`: 27 of 29. Modelled: _zPCDFieldIsCoord, _zPCDFieldAssignReadASCII, _zPCDFieldAssignReadBIN, _zPCDFieldAssignReadBINCOM, _zPCDFieldInit, _zPCDInit, _zPCDFieldAttrFind, _zPCDVersionFRead, _zPCDFieldsFRead, _zPCDCheckFieldNum, _zPCDSizeFRead, _zPCDValueTypeFRead, _zPCDCountFRead, _zPCDWidthFRead, _zPCDHeightFRead, _zPCDViewpointFRead, _zPCDPointsFRead, _zPCDDataTypeFRead, _zPCDHeaderFRead, _zPCDDataASCIIFRead, _zPCDDataBINFRead, _zPCDDataBINCOMFRead, zVec3DDataFReadPCD, _zPCDHeaderFWrite, _zPCDDataASCIIFWrite, _zPCDDataBinFWrite, zVec3DDataFWritePCD. Not modelled: zVec3DDataReadPCDFile, zVec3DDataWritePCDFile.
* `src/zeo_vec3d_profile.c`: 6 of 6. Modelled: _zVec3DDataNormalVecFromVicinity, zVec3DDataNormalVec_Tree, zVec3DDataNormalVec_Octree, zVec3DDataIdentFrame, _zVec3DDataICPInit, zVec3DDataICP.
* `src/zeo_vec3d_tree.c`: 25 of 28. Modelled: zVec3DTreeDataInit, _zVec3DTreeCreateLeaf, _zVec3DTreeChooseBranch, _zVec3DTreeAddPoint, zVec3DTreeAddPoint, zVec3DTreePart, _zVec3DTreeNNTest, _zVec3DTreeNNOpp, _zVec3DTreeNN, zVec3DTreeNN, _zVec3DTreeVicinityTest, _zVec3DTreeVicinityOpp, _zVec3DTreeVicinity, zVec3DTreeVicinity, zVec3DArrayToTree, _zVec3DTreeToArray, zVec3DTreeToArray, _zVec3DTreeNodeToList, zVec3DTreeToList, zVec3DListToTree, zVec3DTreeAddData, zVec3DDataToTree, _zVec3DTreeToData, zVec3DTreeToData, _zVec3DTreeIsOverlap. Not modelled: _zVec3DTreeFPrint, zVec3DTreeFPrint, zVec3DTreeValueFPrint.
* `src/zeo_vec6d.c`: 12 of 23. Modelled: zVec6DAdd, zVec6DSub, zVec6DRev, zVec6DMul, zVec6DDiv, zVec6DCat, zVec6DInnerProd, zVec6DLinShift, zVec6DLinShiftDRC, zVec6DAngShift, zVec6DAngShiftDRC, zVec6DDif. Not modelled: zVec6DCreate, zVec6DFromVec3D, zVec6DCopy, zVec6DMatch, zVec6DEqual, zVec6DIsTol, zVec6DFromZTK, zVec6DFScan, zVec6DValueFPrint, zVec6DValueNLFPrint, zVec6DFPrint.
* `src/zeo_voronoi2d.c`: 17 of 24. Modelled: _zDelaunayTri2DBind, _zDelaunayTri2DFindAdj, _zDelaunayTri2DListFind, _zDelaunayPair2DStackPush, _zDelaunay2DLegalizeOne, _zDelaunay2DUpdate, _zDelaunay2DPurgeOuter, zVec2DDataDelaunayTriangulate, _zVoronoi2DListInit, _zVoronoi2DListFind, _zVoronoi2DCellAddLoop, _zVoronoi2DListLoopClose, _zVoronoi2DListFromDelaunayTri2D, _zVoronoi2DListFromDelaunayTri2DList, zVec2DDataVoronoiDiagram. Variants: _zDelaunay2DLegalize, _zDelaunay2DCreateOuter. Not modelled: _zDelaunayTri2DCreate, _zDelaunayTri2DFPrint, _zDelaunayTri2DListAdd, zDelaunayTri2DListFPrint, zDelaunayTri2DListVoronoi2DFPrint, zVoronoi2DListDestroy, zVoronoi2DListFPrint.

Together 1408 modelled and 81 variants of 2101 functions and macros.

## 5. Assumptions of each theorem

As printed by `Print Assumptions`.  Abbreviations: **D** = `ClassicalDedekindReals.sig_forall_dec`,
**N** = `ClassicalDedekindReals.sig_not_dec`, **F** = `FunctionalExtensionality.functional_extensionality_dep`,
**C** = `Classical_Prop.classic`, **E** = `ClassicalEpsilon.constructive_indefinite_description`.

* none (closed under the global context) — 28 theorems: C01_axis_names, C01_dir_names, C01_dir_rev, C17_badindex, C17_ext, C17_rowcol, C19_mat6_inplace, C27_vertices, C27_vertices2, C42_any, C42_array, C42_array_overwrite, C42_array_refuted, C42_cpp_address_list_refuted, C42_list, C42_reference, C46_box_count, C50_copy, C56_copy, C62_constructor, C62_create, C62_put, C77_none_refuted, C78_none_refuted, C93_contents, C93_empty, C93_left, C93_lifo.
* D — 7 theorems: C19_drc2_any_overlap, C19_mat_any_overlap, C19_same_or_apart, C19_vec_any_overlap, C59_minkowski_refuted, C62_print, C81_texture_copy_refuted.
* D, F — 173 theorems: C02_div, C03_proj_refuse, C05_2d_adj_det, C05_2d_inv, C05_2d_refused, C05_2d_solve_mat, C05_2d_solve_vec, C05_adj, C05_det, C05_inv, C05_solve_mat, C05_solve_vec, C05_sound, C06_singular_unreported, C10_cascade, C10_matrix, C12_ep_back, C14_group, C14_relative, C16_dual, C16_group, C16_shift, C17_div, C17_entries, C17_mulmat, C17_mulvec, C18_frame_act, C18_frame_closed, C18_frame_inv, C18_interdiv, C19_adjvec_inplace, C19_eprot, C19_interdiv2_inplace, C19_mulvec2_inplace, C19_rot90_refuted, C19_zyxvel_inplace, C24_feet, C24_meet2, C26_barycentre, C27_area, C27_create, C27_create2, C27_enlarge, C27_enlarge2, C27_expand, C27_expand2, C27_inside, C27_inside2, C27_intersection, C27_merge, C27_merge2, C27_overlap, C27_overlap_solid, C27_size, C27_size2, C27_touching_refuted, C27_volume, C28_bounds, C28_bounds2, C28_common_box, C28_empty, C28_extremes, C28_extremes2, C28_xform, C29_from_aligned, C29_inside, C29_to_aligned, C29_vertices, C29_xform, C36_apex, C39_box, C43_support_2d, C43_support_3d, C44_partition, C45_add_data, C45_export, C45_to_data, C48_empty, C48_order, C48_together, C49_blend, C49_from_hsv, C49_grey, C49_hex, C49_hex_long, C49_hex_short_refuted, C49_hsv_round_trip, C49_hue_refuted, C49_multiply, C49_names, C49_ratio, C49_round_trip, C49_set, C49_to_hsv, C50_blend, C50_create, C50_init_refuted, C50_multiply, C50_print_read, C50_ztk_read, C50_ztk_refuted, C51_cell, C51_cell_order, C51_column_refuted, C51_edge_refuted, C51_height, C51_travs, C51_unique, C51_zrange, C52_edge_plane, C52_edge_plane_check, C52_edge_plane_flat, C52_tri_plane, C52_tri_plane_check, C52_tri_plane_count, C52_tri_plane_cut, C52_tri_plane_flat, C53_plane_check, C53_plane_count, C53_plane_decides, C53_plane_points, C57_convert, C57_merge, C57_merge_dangling, C57_trunc_complete, C57_trunc_exact, C57_trunc_good, C57_trunc_pieces, C57_trunc_sound, C57_trunc_tight, C59_support, C59_support_max, C60_alloc, C60_box, C60_box_refuted, C60_corner, C60_defined, C60_hull, C60_mesh, C60_mirror, C60_xform, C60_xforminv, C61_translate, C63_ecyl_mirror, C63_ecyl_xform, C63_ellipse_inside, C63_ellipsoid_inside, C63_ellipsoid_mirror, C63_ellipsoid_xform, C64_aabb, C64_aabb_refuted, C67_change_of_basis, C67_difference, C68_check_orthonormal, C68_check_righthand, C68_rotations_pass, C69_ep, C69_equal, C69_mat2, C69_mat3, C69_vec6, C81_bump_refuted, C81_texture_round_trip, C87_plane, C90_beyond, C90_curve_refuted, C90_early, C90_few, C90_missing, C90_nosize_refuted, C90_points, C90_read, C90_round.
* D, N, F — 404 theorems: C02_normalize2, C02_normalize2_fail, C02_normalize3, C02_normalize3_fail, C03_orthogonalize, C03_orthonormal, C03_orthonormal_gap_refuted, C03_orthonormal_space, C03_orthospace, C03_proj, C03_proj2, C04_rot_add, C04_rot_isometry, C04_rot_matrix, C04_rot_rodrigues, C07_zyx_elementary, C08_zyz_elementary, C09_aa_matrix, C10_aa, C10_normalize, C10_roundtrip, C12_singular, C12_zyx_back, C12_zyz_back, C13_rpy, C13_sequence, C14_points, C15_dh, C15_rigid, C18_act, C18_coord_group, C18_correspond, C18_rot, C19_cascade2, C19_cascade_drc_refuted, C19_mat2_inplace, C19_rpy_drc, C19_rpy_inplace, C19_vec2_inplace, C20_decomposition, C20_min, C20_residual, C20_terminates, C21_closest2, C21_closest3, C21_degenerate, C21_margin, C21_nearest_end, C21_weights2, C21_weights3, C22_closest2, C22_closest3, C22_create, C22_flat2, C22_flip, C22_inside2, C22_margin, C22_nearest_vertex, C22_signed, C22_sliver, C22_unwritten3, C22_weights2, C22_weights3, C23_closest, C23_inside, C23_weights, C24_create, C24_create2, C24_distance, C24_edge_line, C24_margin, C24_margin2, C24_near_parallel_refuted, C24_projection, C24_projection2, C24_two_points, C24_two_points2, C24_upper, C25_create, C25_dangling_origin, C25_meet, C25_on_plane_distance_refuted, C25_on_plane_test, C25_parallel, C25_projection, C26_circumcentre, C26_circumcentre2, C26_circumcentre_flat, C26_cone_circumcentre, C26_incentre, C26_incentre2, C26_orthocentre, C26_orthocentre2, C27_closest, C27_closest2, C29_closest, C29_copy, C29_create, C29_mirror, C30_exact, C30_no_miss, C30_separate, C30_touching_refuted, C31_aligned, C31_oriented, C32_closest, C32_disk_from2, C32_disk_from3, C32_disk_inside, C32_from2, C32_from3, C32_from4, C32_inside, C32_mirror, C32_xform, C32_xform_closest, C33_axial, C33_axial_unique, C33_closest, C33_inside, C33_mirror, C33_xform, C34_closest, C34_far_refuted, C34_inside, C34_zero_margin_refuted, C35_closest, C35_inside, C35_mirror, C35_xform, C36_flip, C36_mirror, C36_scale, C36_xform, C36_xforminv, C38_density, C38_mesh, C38_shape, C38_symmetric, C39_elliptic_cylinder, C40_ellipsoid, C40_sphere, C41_volume, C43_nearest_2d, C43_nearest_3d, C43_nearest_empty, C43_vicinity_2d, C43_vicinity_3d, C44_empty, C44_nearest, C45_vicinity, C46_data, C46_history, C46_tolerance, C47_hidden_refuted, C47_loss_refuted, C47_unify, C48_bary_components, C48_barycentre, C48_components, C48_covariance, C48_frame, C48_normal, C48_plane, C51_flat_refuted, C51_ident, C51_out_refuted, C51_region, C52_coplanar_refuted, C52_edge_tri, C52_edge_tri_refuted, C52_overrun_refuted, C52_self_refuted, C52_tri_tri, C52_tri_tri_check, C52_tri_tri_found, C53_pierce_refuted, C53_plane_refuted, C53_tri, C53_tri_sound, C54_empty_plane, C54_empty_space, C54_plane, C54_plane_recursive, C54_plane_recursive_refuted, C54_space, C54_space_recursive, C54_space_recursive_refuted, C54_space_refuted, C55_closest, C55_closest_refuted, C55_closest_two, C55_inside_refuted, C56_align, C56_convex, C56_count, C56_tiling, C56_tiling_refuted, C57_convert_back, C57_fast, C57_in_box, C57_ph_intersect, C57_ph_trunc, C57_trunc_planes, C57_trunc_undef, C58_ball, C58_closest, C58_contig, C58_contig_undefined, C58_exists, C58_inside, C58_inside_union, C58_least, C58_octree, C58_octree_empty, C58_refuted, C58_vertices, C59_ends, C59_false_alarm_refuted, C59_hit, C59_missed_refuted, C59_mpr_no, C59_pair, C59_point, C59_point_ends, C59_polyhedra_hit, C59_polyhedra_pair, C59_single, C60_closest, C60_closest_refuted, C60_cone, C60_cyl, C60_ecyl, C60_ecyl_refuted, C60_ellipsoid, C60_sphere, C60_tangent, C60_torus, C61_gaze, C61_lookat, C61_lookat_documented_axis_refuted, C61_rotate, C61_rotate_noaxis, C63_ecyl_axes, C63_ecyl_axes_null_refuted, C63_ecyl_closest, C63_ecyl_inside, C63_ellipse_closest, C63_ellipsoid_closest, C63_sphere_to_ellipsoid, C64_closest, C64_contig, C64_inside, C64_surface_refuted, C66_quarter_turn, C68_lefthand_refuted, C68_orthonormalize, C69_vec2, C69_vec3, C70_open_refuted, C70_prism, C70_prism_inside, C70_pyramid, C70_pyramid_inside, C70_small, C71_binary, C71_file, C71_no_faces_binary, C71_no_faces_text, C71_stale_root_refuted, C71_text, C71_text_ends, C71_text_file, C71_truncated_refuted, C71_unfinished, C71_unnamed_refuted, C73_best, C73_done, C73_flat, C73_loose, C73_null, C73_recover, C73_result, C73_scale_refuted, C73_svd, C73_svd_done, C74_none, C74_normals, C74_tree, C74_zero, C74_zero_octree, C75_converged, C75_done, C75_empty, C75_few, C75_first, C75_full, C75_nan, C75_nosample, C75_shift, C75_worse_refuted, C77_dangling_refuted, C77_delaunay, C77_fails, C77_fails_refuted, C77_flat_refuted, C77_outer, C78_cut_refuted, C78_fails, C78_voronoi, C79_defined, C79_exact_refuted, C79_intersection, C79_region, C79_shallow, C80_auto_axis, C80_auto_first_refuted, C80_face_numbers, C80_faces_first_refuted, C80_mirror, C80_placement, C80_round_trip, C80_sweep, C81_copy, C81_copy_refuted, C81_failure_refuted, C81_file_round_trip, C82_beyond, C82_binary_round_trip, C82_elements, C82_faces_first_refuted, C82_grid_refuted, C82_lists, C82_missing_refuted, C82_polygons, C82_polygons_refuted, C82_properties, C82_square_refuted, C82_text_round_trip, C82_triangles, C82_types_refuted, C82_unfinished, C83_beyond, C83_general, C83_order_refuted, C83_square_refuted, C83_triangles, C84_binary, C84_binary_refuted, C84_binary_round_trip, C84_blank_refuted, C84_compressed_refuted, C84_forever, C84_order, C84_text, C84_text_round_trip, C84_unknown, C84_untyped, C84_zero_refuted, C85_acute, C85_corner, C85_edge, C85_inside, C85_obtuse_refuted, C86_accepted, C86_lines, C86_net_empty, C86_net_refuted, C86_order_refuted, C86_refused, C86_type, C87_none, C88_empty, C88_matrix, C88_matrix_iff, C88_order_refuted, C88_placements, C88_polygon_refuted, C88_read, C88_shown, C88_standard, C88_undefined, C89_dominant, C89_least, C89_near, C89_opposite_refuted, C89_singular, C89_start_refuted, C89_stop, C91_depth, C91_ends, C91_false, C91_found, C91_tetra, C91_twice_refuted, C92_answer, C92_depth, C92_least_refuted, C92_more, C92_portal, C93_array, C93_closest, C93_contig, C93_contig_undefined.
* D, F, C — 1 theorems: C57_merge_good.
* D, N, F, C — 74 theorems: C07_zyx_recover, C07_zyx_roundtrip, C08_zyz_recover, C08_zyz_roundtrip, C09_aa_recover, C09_aa_recover_pi, C09_aa_roundtrip, C10_aa_back, C11_slerp, C11_slerp_arc, C11_slerp_matrix, C12_ep, C12_zyx, C12_zyz, C14_twist_error, C15_roundtrip, C18_angle, C18_error, C18_roundtrip, C37_tetra, C39_cone, C39_cylinder, C40_capsule, C40_capsule_refuted, C41_lathe_refuted, C41_torus, C46_auto, C55_degenerate, C55_hull, C55_polyhedron, C57_fast_refuted, C57_merge_refuted, C65_box, C65_capsule, C65_cone, C65_cylinder, C65_ellipsoid, C65_elliptic_cylinder, C65_sphere, C66_angle, C66_angle2, C66_angle_about, C66_antisymmetric, C66_error, C66_error_opposite_refuted, C66_error_parallel, C66_polar, C67_cascade, C67_differentiate, C67_error, C67_integrate, C71_single_exact, C71_single_precision, C72_box, C72_data, C72_least, C72_null, C72_volume_refuted, C76_extreme, C76_hull, C76_line, C76_place, C76_plane, C79_hull, C86_again, C86_forgets, C86_height_refuted, C86_net, C86_round_trip, C86_section, C86_travs_refuted, C91_inside, C91_point, C91_small.
* D, N, F, C, E — 2 theorems: C87_exact, C87_stationary.

## 6. Findings

Behaviour of the code that departs from its comments or from what a caller would
expect.  A theorem in brackets proves it of the model; the others were noticed
while reading.

1. `zMat3DInv`, `zMulInvMat3D*` return a result and no failure for singular matrices (C06_singular_unreported).
2. `zVec3DOrthoSpace` does not return unit vectors although its header says so (C03_orthospace); `zVec3DOrthonormalSpace` has a gap of tolerances (C03_orthonormal_gap_refuted).
3. `zCoord2DCascadeDRC` doubles the displacement, and several functions are wrong when called in place (C19_cascade_drc_refuted, C19_rot90_refuted and the `_inplace` theorems).
4. The loop condition of the Jacobi method (`zMat3DSymEig`) is inoperative; termination does not depend on it (C20_terminates).
5. `zFrame3DLookAtView` looks along the axis opposite to the documented one (C61_lookat_documented_axis_refuted).
6. `zMat3DOrthonormalize` with an anticyclic order of axes returns a left-handed matrix (C68_lefthand_refuted).
7. `zMat6DFPrint` prints the off-diagonal blocks transposed with respect to each other, and the C++ constructor of `zMat6D` swaps them (C62_print, C62_constructor).
8. Closest point of a degenerate edge divides by zero, of a point-like triangle writes nothing (C21_degenerate, C22_unwritten3).
9. The distance of two nearly parallel lines jumps (C24_near_parallel_refuted); `zIntersectPlane3D` leaves the origin of the result line unset for parallel planes (C25_dangling_origin); `zPlane3DPointIsOn` compares an angle, not a distance (C25_on_plane_distance_refuted).
10. Touching boxes are reported as separate (C27_touching_refuted, C30_touching_refuted); `zBox3DCreate` with a tiny axis uses an uninitialised vector.
11. Capsule: the inside test fails with zero margin and for far points (C34_zero_margin_refuted, C34_far_refuted).  Cylinder: sign of the distance above the second cap (C33_axial).
12. Polar caps of sphere and ellipsoid meshes are wound inwards (C40_sphere, C40_ellipsoid); capsule meshes are wrong unless the division is a multiple of four (C40_capsule_refuted); the last cap of a lathe is wound the wrong way (C41_lathe_refuted); torus faces take normals from vertices not yet written.
13. Array-backed point data: adding after a rewind overwrites and truncates (C42_array_refuted); the C++ `toAddrList` calls the wrong function (C42_cpp_address_list_refuted).
14. kd-tree queries on an empty tree read the element before an array (C44_empty).
15. Octree: `Unify` loses points (C47_loss_refuted, C47_hidden_refuted); a negative resolution recurses for ever; `zVec3DOctreeToAABox3DList` returns 0 when the list was not empty before (C46_box_count).
16. Colours: hue 360 is not converted back (C49_hue_refuted); short or long hexadecimal strings read out of bounds or are misread (C49_hex_short_refuted, C49_hex_long); optical information is not initialised before reading and some keys are lost (C50_init_refuted, C50_ztk_refuted).
17. Terrain: cells at the edge, out of range and columns (C51_edge_refuted, C51_out_refuted, C51_column_refuted, C51_flat_refuted).
18. Triangle collision: overrun of a local array, coplanar triangles and self-intersections missed (C52_overrun_refuted, C52_coplanar_refuted, C52_self_refuted, C52_edge_tri_refuted); plane/box and triangle/box misses (C53_plane_refuted, C53_pierce_refuted); `zIntersectVecListPlane3D` is declared and never defined.
19. Bounding balls: the recursive variants can fail or return a ball that misses points (C54_plane_recursive_refuted, C54_space_recursive_refuted, C54_space_refuted).
20. Planar hull: `zConvexHull2DClosest` returns HUGE_VAL for points of the polygon and may choose a wrong edge (C55_inside_refuted, C55_closest_refuted); collinear data give NULL (C55_degenerate).
21. Ear clipping removes a wrong corner when it finds no ear, for instance when the leftmost corner is flat (C56_tiling_refuted); pyramids and prisms over such loops have gaps (C70_open_refuted); with fewer than three corners unwritten faces are read (C70_small).
22. `zBREPMerge` leaves edges with dangling ends (C57_merge_dangling, C57_merge_refuted); `zBREPTruncPH3D` ignores the failure on degenerate faces (C57_trunc_undef); `zIntersectPH3DBREPFast` loses the face that closes the common part (C57_fast_refuted).
23. Sets of shapes: results on empty sets and of the closest point (C58_refuted, C58_contig_undefined); an empty octree becomes one box that fills the region (C58_octree_empty).
24. GJK reports collisions that are none and misses others because stale slots are used (C59_false_alarm_refuted, C59_missed_refuted); the header says that `zGJK` returns a distance; `zVec3DDataMinkowskiSub` pairs only the first element (C59_minkowski_refuted).
25. NURBS boxes, cylinders and elliptic cylinders lack side walls (C60_box_refuted, C60_ecyl_refuted); the closest point is not the closest (C60_closest_refuted).
26. `zECyl3DDefAxis` returns a null reference for an axis along x (C63_ecyl_axes_null_refuted); `zECyl3DToPH` tests the sign of a value that is never negative; `zEllips3DClosest` ignores a failure.
27. `zPH3DClosest` gives a positive distance to a point of the surface between coplanar faces (C64_surface_refuted); `zPH3DAABB` always includes the origin (C64_aabb_refuted); `zPH3DScaleDRC` does not refresh normals.
28. `zVec3DAAError` returns zero for opposite vectors (C66_error_opposite_refuted).
29. STL files: the reader queries an empty kd-tree for the first vertex, hence compares it with uninitialised memory; if they agree the second corner takes the place of the first (C71_stale_root_refuted). A text written with an empty name loses its first facet (C71_unnamed_refuted). A truncated binary file is read without failure, the last facet being repeated (C71_truncated_refuted). The binary writer copies 80 bytes of a name of any length, the binary reader writes 80 bytes to a buffer of any length.
30. `zVec3DDataOBB` minimises the height over faces first, so the box may have half as much again of the least volume (C72_volume_refuted); a hull without faces makes it follow a null pointer (C72_null).
31. `zVec3DDataIdentFrame` uses the scale of the points for the position but returns a frame without it (C73_scale_refuted); three points or points in a plane give a singular attitude without any report (C73_flat), although three is the number of points it asks for; mirror images give a reflection (C73_recover).
32. `zVec3DDataNormalVec` uses an uninitialised box for no point (C74_none), and both variants use an uninitialised normal vector for radius zero (C74_zero, C74_zero_octree).
33. `zVec3DDataICP` takes a round in which no point is sampled for convergence (C75_nosample), so it can return a frame that is worse than the one it started from (C75_worse_refuted); the samples of the last round are not freed.
34. `zVec2DDataDelaunayTriangulate`: with no points the list is never initialised but used (C77_none_refuted); because zVec2DDataBoundingBallRecursive may miss points (C54_plane_recursive_refuted), ordinary points make it return false (C77_fails_refuted); the outer triangle is finite, so flat triangles of the data are lost (C77_flat_refuted); after the outer triangles are purged the remaining ones point to freed memory (C77_dangling_refuted), which zDelaunayTri2DListVoronoi2DFPrint reads.
35. `zVec2DDataVoronoiDiagram`: the corners of the outer triangle count as sites, so cells of points on the rim are cut off by them (C78_cut_refuted); with no points an uninitialised list is used (C78_none_refuted); the nodes it returns point to triangles that it has freed.
36. `zIntersectPH3D` replaces the distance of a face from the base point by 1e-5 when it is smaller; a base point that had to be moved is always only 2e-12 beneath a face, so the result exceeds that face (C79_exact_refuted). Overlaps with contact points nearer than 1e-4 are reported as none (C79_shallow). If the first hull fails in its allocation, the uninitialised hull `ch` is released.
37. Shape files: `zVec3DFromZTK` does not advance past a vector in parentheses, so `rot: (x, y, z) a` ignores the angle (constructor `pl_rot_par` in C80_placement); `auto` before the other axes takes the coordinate axes (C80_auto_first_refuted); a `type` key before a `mirror` key erases the name (second part of C80_mirror); faces written before the vertices get null normals (C80_faces_first_refuted); a negative vertex number in a face is a wild array index (model outcome RUndef in `phFace`).
38. `zMultiShape3DFromZTK` does not look at the result of the evaluation: a duplicate shape name leaves that shape and all following ones empty and still reports success (C81_failure_refuted). A bump map of depth 0 is written but cannot be read (C81_bump_refuted). `zTextureClone` allocates arrays but copies neither coordinates nor faces nor the depth, and fails for a texture without faces (C81_texture_copy_refuted); `zMultiShape3DClone` leaves the texture pointers of the copy in the original and computes a wild index for shapes without an optical property (C81_copy_refuted).
39. `zPH3DReadFilePLY`: the second corner is never advanced while a polygon is split, so polygons of four or more corners give overlapping triangles on the first side (C82_polygons_refuted, C82_square_refuted); a coordinate without a property takes the first property of the row (C82_missing_refuted); vertex numbers are not checked (C82_beyond, C82_faces_first_refuted); the entries of a grid list are read over with the type of the count (C82_grid_refuted); there is one pair of list types for the whole file (C82_types_refuted); twelve properties are refused though the array holds twelve (C82_properties); the file stays open on failure.
40. `zPH3DReadFileOBJ`: corners behind the third are ignored (C83_square_refuted); negative (relative), zero and too large vertex numbers are wild array indices (C83_beyond); a face before its vertices has a normal from unwritten memory (C83_order_refuted). `_zOBJFReadFaceIndex` cuts the word at the first slash before it looks for the second, so it never finds a normal number (not used so far).
41. `zVec3DDataReadPCDFile`: the loop over a binary file notices the end one row late, so a file with a point that is not finite gains a point at the viewpoint (C84_binary_refuted); an empty line in a text does the same (C84_blank_refuted); for compressed files the array is allocated with size 0, so that no point is stored and success is reported (C84_compressed_refuted); a failure to normalise the quaternion is ignored (C84_zero_refuted); an unknown key or keys out of order run into `strcmp` with a null pointer (C84_unknown, C84_order); the type index is -4 without a TYPE line (C84_untyped); without FIELDS the loop never ends (C84_forever).
42. `zTri3DLinScale` returns a corner for points beyond it that are nearer to a side when the angle is obtuse (C85_obtuse_refuted); for a point over the inside it returns distance 0 whatever its height (C85_inside).  zVec3DNormalize returns 0 for a negligible vector, so the test for a negative value in `_zEdge3DLinScale` never finds a degenerate edge.
43. `zTerraFPrintZTK` does not store the planes of the cells, yet `zTerraZ`, `zTerraCheckTravs` and `zTerraUpdate` use them: a map read from a file has height 0 everywhere (C86_height_refuted), its nodes are refused by a new check (C86_travs_refuted), and it starts learning from nothing (C86_forgets). The size key computes the upper bounds at once, so they are wrong when it precedes origin or resolution (C86_order_refuted). `zMapNetFromZTK` ignores the result of the evaluation (C86_net_refuted); printing such a net dereferences a null pointer.
44. `zSphere3DFit` frees its matrix but neither of its two vectors. Points in one plane (a circle, or fewer than four points) give systems without full rank at every step (C87_plane); no points give 0/0 (C87_none).
45. `zPH3DReadFileDAE`: a matrix is read into columns though the file has rows, so it is transposed (C88_matrix, C88_matrix_iff); turns and scales are multiplied from the left, so they act in reverse order, and moves are only added up (C88_placements, C88_order_refuted); only the last node that shows a mesh counts, and meshes that no node shows are read too (C88_shown); a polygon that is not a triangle leaves its face and the rest of its group unwritten while success is reported (C88_polygon_refuted); for a file that is not COLLADA or has no library_geometries the list `mlist` is never initialised but destroyed (C88_undefined). A stride above three writes outside of the accessor array, and missing attributes are used as null pointers (model outcome RUndef).
46. `zMat3DEigPower` is documented to return the largest eigenvalue. It returns the one of greatest magnitude, or a lesser one if the start happens to lie along its eigenvector (C89_start_refuted), or no eigenvalue at all if two dominant ones are opposite (C89_opposite_refuted), and does not report that it did not settle. `zMat3DEigPowerInv` tests the result of zMat3DInv, which is never null, so for a singular matrix it goes on with an unwritten matrix (C89_singular).
47. `zNURBS3DFromZTK` refuses degree 0, so no curve made by zNURBS3D1Alloc can be read back (C90_curve_refuted); a file without a size line is accepted with an empty net (C90_nosize_refuted); without knots of an axis the number of knots is taken from a null pointer (C90_missing). The warnings for repeated knots and sizes are never reached, since those keys are evaluated once.
48. `_zGJKPDInit` adds the support points for two directions and their reverses without looking whether they are already there. A point collected twice is counted twice as a corner of the nearest face, and the loop that sums up the corners stops at three: for a double pyramid around a point, `zGJKDepth` returns true with the second point one metre off the only point of the second set, and a displacement that leaves the sets overlapping (C91_twice_refuted). Where a known support point ends the search, `v` has been reversed before zTri3DLinScale; the weights are the same, since it is perpendicular to the face (part of C91_depth).
49. `zMPRDepth` is documented to compute the penetration depth. It returns the length of a displacement that separates, found along the ray from the centre through the origin: for a slender octahedron around a point it returns 10 where a displacement by 1 separates (C92_least_refuted). Where the refined portal passes through the origin, `dir` is normalised from the zero vector, a division by zero.

## 7. Mutation tests

`seeded/LOG.jsonl` records 777 edits of the model made in scratch copies the way a
bug would change the program.  760 made the theorems of the affected property
fail; 9 showed a theorem to be too weak or missing, which was then tightened or
added (field `theorems_tightened`); 8 change no behaviour that is claimed, as their
entries say.  The last 9 entries were tried on the theories that PropsAlias, PropsVec,
PropsMat, PropsFrame, PropsBox, PropsShape and PropsMisc depend on only, so theorems of
other files that fail as well are not listed there.

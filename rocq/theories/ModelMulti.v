(** Model of sets of shapes: src/zeo_multishape3d.c, and the dispatch of queries to the
    shape classes in src/zeo_shape3d.c.  A set of shapes is the list of its members in the
    order of the array; optical information, textures and names are left out.
    [ans] stands for the polynomial solver used by ellipsoids and elliptic cylinders.
    [None]: undefined behaviour (reading shape 0 of an empty array, a cast of a
    shape that is not a polyhedron, or undefined behaviour within a member). *)
From Verif Require Export ModelMass ModelPH ModelShape ModelMesh ModelOctree ModelBall.
From Coq Require Import List.
Import ListNotations.
Open Scope R_scope.

(** zeo_shape3d.c 94-97; zeo_shape3d_box.c 119, _sphere.c 157, _ellips.c 340, _cyl.c 280, _ecyl.c 314, _capsule.c 238, _cone.c 301, _ph.c 33 *)
Definition zShape3DClosest (ans : list R -> list (R * R)) (s : shape3) (p : vec3) : option (R * vec3) :=
  match s with
  | ShBox b => Some (zBox3DClosest b p)
  | ShSphere s => zSphere3DClosest s p
  | ShEllips e => zEllips3DClosest ans e p
  | ShCyl c => zCyl3DClosest c p
  | ShECyl c => zECyl3DClosest ans c p
  | ShCapsule c => zCapsule3DClosest c p
  | ShCone c => zCone3DClosest c p
  | ShPH ph => zPH3DClosest ph p
  end.

(** zeo_multishape3d.c 94-107 *)
Definition zMultiShape3DClosest (ans : list R -> list (R * R)) (ms : list shape3) (p : vec3) : option (R * vec3) :=
  match ms with
  | [] => None
  | s :: rest =>
      fold_left (fun acc s =>
        match acc, zShape3DClosest ans s p with
        | Some (dist_min, closestpoint), Some (dist, cp) => if Rltb dist dist_min then Some (dist, cp) else acc
        | _, _ => None
        end) rest (zShape3DClosest ans s p)
  end.

(** zeo_shape3d.c 106-109 *)
Definition zShape3DPointIsInside (s : shape3) (p : vec3) (margin : R) : option bool :=
  match s with
  | ShBox b => Some (zBox3DPointIsInside b p margin)
  | ShSphere s => Some (zSphere3DPointIsInside s p margin)
  | ShEllips e => Some (zEllips3DPointIsInside e p margin)
  | ShCyl c => Some (zCyl3DPointIsInside c p margin)
  | ShECyl c => zECyl3DPointIsInside c p margin
  | ShCapsule c => Some (zCapsule3DPointIsInside c p margin)
  | ShCone c => zCone3DPointIsInside c p margin
  | ShPH ph => zPH3DPointIsInside ph p margin
  end.
(** zeo_multishape3d.c 110-118: members after the first one that contains the point are not looked at *)
Fixpoint zMultiShape3DPointIsInside (ms : list shape3) (p : vec3) (margin : R) : option bool :=
  match ms with
  | [] => Some false
  | s :: rest => match zShape3DPointIsInside s p margin with
                 | None => None
                 | Some true => Some true
                 | Some false => zMultiShape3DPointIsInside rest p margin
                 end
  end.

(** include/zeo/zeo_shape3d.h 141: the outcome of zPH3DContigVert applied to the body of the shape *)
Inductive contig := Undefined | NoVert | Vert (v : vec3) (d : R).
Definition zShape3DContigVert (s : shape3) (p : vec3) : contig :=
  match s with
  | ShPH ph => match zPH3DContigVert ph p with None => NoVert | Some (v, d) => Vert v d end
  | _ => Undefined
  end.
(** 73-91: the state is v, dist_min and the value of *distance, which a member without
    vertices leaves as it is; [None] if the first member has none, as dist_min is then
    the indefinite initial value of *distance *)
Definition zMultiShape3DContigVert (ms : list shape3) (p : vec3) : option (vec3 * R) :=
  match ms with
  | [] => None
  | s :: rest =>
      match zShape3DContigVert s p with
      | Vert v d =>
          match fold_left (fun acc s =>
            match acc, zShape3DContigVert s p with
            | Some (v, dist_min, distance), Vert nv d => if Rltb d dist_min then Some (Some nv, d, d) else Some (v, dist_min, d)
            | Some (v, dist_min, distance), NoVert => if Rltb distance dist_min then Some (None, distance, distance) else Some (v, dist_min, distance)
            | _, _ => None
            end) rest (Some (Some v, d, d)) with
          | Some (Some v, dist_min, _) => Some (v, dist_min)
          | _ => None
          end
      | _ => None
      end
  end.

(** zShape3DToPH, zeo_shape3d.c 160-179, as far as vertices are concerned; [None] for failure or
    when not all vertices of the array are written *)
Definition mesh_verts (m : mesh) : option (list vec3) := if Nat.eqb (m_nv m) (length (m_verts m)) then Some (m_verts m) else None.
Definition mesh_overts (m : option mesh) : option (list vec3) := match m with Some m => mesh_verts m | None => None end.
Definition shapeVerts (s : shape3) : option (list vec3) :=
  match s with
  | ShBox b => mesh_verts (zBox3DToPH b)
  | ShSphere s => mesh_verts (zSphere3DToPH s)
  | ShEllips e => mesh_verts (zEllips3DToPH e)
  | ShCyl c => mesh_overts (zCyl3DToPH c)
  | ShECyl c => mesh_overts (zECyl3DToPH c)
  | ShCapsule c => mesh_overts (zCapsule3DToPH c)
  | ShCone c => mesh_overts (zCone3DToPH c)
  | ShPH ph => Some (pverts ph)
  end.
(** 131-160: the list of addresses, in the order of insertion *)
Fixpoint zMultiShape3DVertData (ms : list shape3) : option (list vec3) :=
  match ms with
  | [] => Some []
  | s :: rest => match shapeVerts s, zMultiShape3DVertData rest with Some vs, Some l => Some (vs ++ l) | _, _ => None end
  end.
(** 163-174 *)
Definition zMultiShape3DBoundingBall (fuel : nat) (ms : list shape3) : option (answer (P:=vec3) (B:=sphere3)) :=
  match zMultiShape3DVertData ms with Some l => Some (zVec3DDataBoundingBall fuel l) | None => None end.

(** zeo_shape3d_box.c 183-189, zeo_elem3d_box.h 216-217 *)
Definition zShape3DBoxCreateFromAABox (b : aabox3) : option shape3 :=
  match zBox3DCreate (zAABox3DCenter b) (V3 1 0 0) (V3 0 1 0) (V3 0 0 1) (zAABox3DDepth b) (zAABox3DWidth b) (zAABox3DHeight b) with
  | Some b => Some (ShBox b)
  | None => None
  end.
(** 177-222 *)
Definition zMultiShape3DFromOctree (t : octree) : option (list shape3) :=
  let '(l, num) := zVec3DOctreeToAABox3DList t [] in
  if Nat.eqb num 0 then Some [] else mapM zShape3DBoxCreateFromAABox l.

(** Mass properties of a generic shape: src/zeo_shape3d.c 114-157.  The table of
    functions chosen by zShape3DCom is modelled by a sum type. *)
From Verif Require Export ModelPH.
Open Scope R_scope.

Inductive shape3 :=
| ShBox (b : box3) | ShSphere (s : sphere3) | ShEllips (e : ellips3) | ShCyl (c : cyl3) | ShECyl (c : ecyl3)
| ShCapsule (c : cyl3) | ShCone (c : cone3) | ShPH (p : ph3).
(** 114-117; zeo_shape3d_box.c 125, _sphere.c 163, _ellips.c 346, _cyl.c 286, _ecyl.c 320, _capsule.c 244, _cone.c 307, _ph.c 39 *)
Definition zShape3DVolume (s : shape3) : option R :=
  match s with
  | ShBox b => Some (zBox3DVolume b) | ShSphere s => Some (zSphere3DVolume s) | ShEllips e => Some (zEllips3DVolume e)
  | ShCyl c => Some (zCyl3DVolume c) | ShECyl c => Some (zECyl3DVolume c) | ShCapsule c => Some (zCapsule3DVolume c)
  | ShCone c => Some (zCone3DVolume c) | ShPH p => zPH3DVolume p
  end.
(** 120-123 *)
Definition zShape3DBarycenter (s : shape3) : option vec3 :=
  match s with
  | ShBox b => Some (zBox3DCenter b) | ShSphere s => Some (scen s) | ShEllips e => Some (fpos (elf e))
  | ShCyl c => Some (zCyl3DBarycenter c) | ShECyl c => Some (zECyl3DBarycenter c) | ShCapsule c => Some (zCyl3DBarycenter c)
  | ShCone c => Some (zCone3DBarycenter c) | ShPH p => zPH3DBarycenter p
  end.
(** 126-135 *)
Definition zShape3DBaryInertiaMass (s : shape3) (mass : R) : option mat3 :=
  match s with
  | ShBox b => Some (zBox3DBaryInertiaMass b mass) | ShSphere s => Some (zSphere3DBaryInertiaMass s mass)
  | ShEllips e => Some (zEllips3DBaryInertiaMass e mass) | ShCyl c => zCyl3DBaryInertiaMass c mass
  | ShECyl c => Some (zECyl3DBaryInertiaMass c mass) | ShCapsule c => zCapsule3DBaryInertiaMass c mass
  | ShCone c => zCone3DBaryInertiaMass c mass | ShPH p => zPH3DBaryInertiaMass p mass
  end.
Definition zShape3DBaryInertia (s : shape3) (density : R) : option mat3 :=
  match s with
  | ShBox b => Some (zBox3DBaryInertia b density) | ShSphere s => Some (zSphere3DBaryInertia s density)
  | ShEllips e => Some (zEllips3DBaryInertia e density) | ShCyl c => zCyl3DBaryInertia c density
  | ShECyl c => Some (zECyl3DBaryInertia c density) | ShCapsule c => zCapsule3DBaryInertia c density
  | ShCone c => zCone3DBaryInertia c density | ShPH p => zPH3DBaryInertia p density
  end.
(** 138-145 *)
Definition zShape3DInertiaMass (s : shape3) (mass : R) : option mat3 :=
  match zShape3DBarycenter s, zShape3DBaryInertiaMass s mass with
  | Some c, Some i => Some (zMat3DCatVec3DDoubleOuterProd i (- mass) c)
  | _, _ => None
  end.
(** 148-157 *)
Definition zShape3DInertia (s : shape3) (density : R) : option mat3 :=
  match zShape3DVolume s with
  | Some v => zShape3DInertiaMass s (density * v)
  | None => None
  end.

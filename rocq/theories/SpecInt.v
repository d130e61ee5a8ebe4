(** Vocabulary: integrals over solids, as iterated integrals in coordinates that
    sweep the solid, and the mass properties they define.
    ([is_RInt f a b I]: the Riemann integral of f from a to b is I.) *)
From Coquelicot Require Import Coquelicot.
From Verif Require Export SpecMesh.
Open Scope R_scope.

(** the standard simplex: u, v, w >= 0, u + v + w <= 1 *)
Definition simplex_int (g : R -> R -> R -> R) (I : R) : Prop :=
  exists G H, (forall u v, is_RInt (fun w => g u v w) 0 (1 - u - v) (G u v)) /\
              (forall u, is_RInt (fun v => G u v) 0 (1 - u) (H u)) /\ is_RInt H 0 1 I.
(** the box with sides a, b, c centred at the origin *)
Definition box_int (a b c : R) (g : R -> R -> R -> R) (I : R) : Prop :=
  exists G H, (forall x y, is_RInt (fun z => g x y z) (- (c / 2)) (c / 2) (G x y)) /\
              (forall x, is_RInt (fun y => G x y) (- (b / 2)) (b / 2) (H x)) /\ is_RInt H (- (a / 2)) (a / 2) I.
(** the solid whose section at height z (z0 <= z <= z1) is the ellipse with
    half axes a * rad z and b * rad z: x = a r cos t, y = b r sin t, dx dy = a b r dr dt *)
Definition round_int (a b : R) (rad : R -> R) (z0 z1 : R) (g : R -> R -> R -> R) (I : R) : Prop :=
  exists G H, (forall z r, is_RInt (fun t => g (a * r * cos t) (b * r * sin t) z * (a * b * r)) 0 (2 * PI) (G z r)) /\
              (forall z, z0 <= z <= z1 -> is_RInt (fun r => G z r) 0 (rad z) (H z)) /\ is_RInt H z0 z1 I.

(** mass properties of a solid of constant density swept by [pt] with the volume
    element of [int]: volume, barycentre, and inertia about the point [ref]
    (entry by entry: u and w range over all vectors) *)
Definition mass_properties (int : (R -> R -> R -> R) -> R -> Prop) (pt : R -> R -> R -> vec3)
    (density volume : R) (centre ref : vec3) (inertia : mat3) : Prop :=
  int (fun _ _ _ => 1) volume /\
  (forall u, int (fun x y z => dot u (pt x y z)) (volume * dot u centre)) /\
  (forall u w, int (fun x y z => density * dot u (mvec (point_inertia (vsub (pt x y z) ref)) w)) (dot u (mvec inertia w))).
(** point with coordinates x, y, z along e1, e2, e3 from o *)
Definition along (o e1 e2 e3 : vec3) (x y z : R) : vec3 := vadd o (vadd (vadd (vscale x e1) (vscale y e2)) (vscale z e3)).
(** the tetrahedron 0 a b c, with its signed volume element *)
Definition tetra_int (a b c : vec3) (g : R -> R -> R -> R) (I : R) : Prop := simplex_int (fun x y z => g x y z * dot a (cross b c)) I.
(** radius of the section at height z of the capsule of radius r whose axis runs from 0 to h *)
Definition capsule_section (r h z : R) : R :=
  if Rltb z 0 then sqrt (r * r - z * z) else if Rltb h z then sqrt (r * r - (z - h) * (z - h)) else r.

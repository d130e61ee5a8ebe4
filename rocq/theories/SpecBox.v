(** Vocabulary for boxes: axis-aligned boxes in 3D and 2D, oriented boxes. *)
From Verif Require Export SpecGeom SpecFrame.
Open Scope R_scope.

(** zAABox3D / zAABox2D: two corners *)
Record aabox3 := B3 { bmin : vec3; bmax : vec3 }.
Record aabox2 := B2 { bmin2 : vec2; bmax2 : vec2 }.

Definition betw (a b x : R) : Prop := a <= x <= b \/ b <= x <= a.

(** points of a box; a proper box has ordered corners *)
Definition in_box (b : aabox3) (p : vec3) : Prop :=
  (vx (bmin b) <= vx p <= vx (bmax b)) /\ (vy (bmin b) <= vy p <= vy (bmax b)) /\ (vz (bmin b) <= vz p <= vz (bmax b)).
Definition proper (b : aabox3) : Prop :=
  vx (bmin b) <= vx (bmax b) /\ vy (bmin b) <= vy (bmax b) /\ vz (bmin b) <= vz (bmax b).
Definition in_box2 (b : aabox2) (p : vec2) : Prop :=
  (x2 (bmin2 b) <= x2 p <= x2 (bmax2 b)) /\ (y2 (bmin2 b) <= y2 p <= y2 (bmax2 b)).
Definition proper2 (b : aabox2) : Prop := x2 (bmin2 b) <= x2 (bmax2 b) /\ y2 (bmin2 b) <= y2 (bmax2 b).
(** the corners of a box *)
Definition corner (b : aabox3) (p : vec3) : Prop :=
  (vx p = vx (bmin b) \/ vx p = vx (bmax b)) /\ (vy p = vy (bmin b) \/ vy p = vy (bmax b)) /\
  (vz p = vz (bmin b) \/ vz p = vz (bmax b)).
Definition corner2 (b : aabox2) (p : vec2) : Prop :=
  (x2 p = x2 (bmin2 b) \/ x2 p = x2 (bmax2 b)) /\ (y2 p = y2 (bmin2 b) \/ y2 p = y2 (bmax2 b)).
(** the point sets A and B still meet after any displacement of A by at most e in each coordinate *)
Definition meet_robustly (A B : vec3 -> Prop) : Prop :=
  exists e, 0 < e /\ forall d, Rabs (vx d) <= e -> Rabs (vy d) <= e -> Rabs (vz d) <= e ->
    exists p, A (vsub p d) /\ B p.
(** the midpoint of a segment *)
Definition midpoint (a b : vec3) : vec3 := vscale (1/2) (vadd a b).
Definition midpoint2 (a b : vec2) : vec2 := vscale2 (1/2) (vadd2 a b).

(** zBox3D: frame (centre and axes) and spans *)
Record box3 := BX { bframe : frame3; bspan : vec3 }.
(** three mutually orthogonal unit axes, of either handedness *)
Definition isometry (m : mat3) : Prop := mmul (mtr m) m = mid.
Definition good_box (b : box3) : Prop :=
  isometry (fatt (bframe b)) /\ 0 <= vx (bspan b) /\ 0 <= vy (bspan b) /\ 0 <= vz (bspan b).
(** points of an oriented box, and its interior *)
Definition in_obb (b : box3) (p : vec3) : Prop :=
  exists u, Rabs (vx u) <= vx (bspan b) / 2 /\ Rabs (vy u) <= vy (bspan b) / 2 /\ Rabs (vz u) <= vz (bspan b) / 2 /\
    p = act (bframe b) u.
Definition inside_obb (b : box3) (m : R) (p : vec3) : Prop :=
  exists u, Rabs (vx u) < vx (bspan b) / 2 + m /\ Rabs (vy u) < vy (bspan b) / 2 + m /\
    Rabs (vz u) < vz (bspan b) / 2 + m /\ p = act (bframe b) u.
(** mirror image in a coordinate plane: axis 0 negates x, 1 negates y, otherwise z *)
Definition mirror (axis : nat) (p : vec3) : vec3 :=
  match axis with
  | 0%nat => V3 (- vx p) (vy p) (vz p)
  | 1%nat => V3 (vx p) (- vy p) (vz p)
  | _ => V3 (vx p) (vy p) (- vz p)
  end.
(** a plane with unit normal [n] has [A] on one side and [B] on the other *)
Definition separated (A B : vec3 -> Prop) : Prop :=
  exists n k, norm n = 1 /\ (forall p, A p -> k <= dot n p) /\ (forall p, B p -> dot n p <= k).
(** the axes of two boxes are, pairwise, exactly parallel or not nearly parallel *)
Definition axis_of (m : mat3) (i : nat) : vec3 := match i with 0%nat => col0 m | 1%nat => col1 m | _ => col2 m end.
Definition clear_axes (b1 b2 : box3) : Prop := forall i j, (i < 3)%nat -> (j < 3)%nat ->
  let c := cross (axis_of (fatt (bframe b1)) i) (axis_of (fatt (bframe b2)) j) in c = v3zero \/ ~ negligible c.
Definition solid (b : box3) : Prop :=
  isometry (fatt (bframe b)) /\ 0 < vx (bspan b) /\ 0 < vy (bspan b) /\ 0 < vz (bspan b).

(** Vocabulary for elevation maps: least-squares planes and grid windows. *)
From Verif Require Export Spec SpecPCA.
From Coq Require Import ZArith.
Open Scope R_scope.

(** height of the plane [z = a x + b y + c] given by [(a, b, c)] *)
Definition plane_z (k : vec3) (x y : R) : R := vx k * x + vy k * y + vz k.
(** regularised cost of a plane: its parameters and its vertical errors *)
Definition cost (l : list vec3) (k : vec3) : R :=
  dot k k + rsum (fun p => (plane_z k (vx p) (vy p) - vz p) * (plane_z k (vx p) (vy p) - vz p)) l.
(** the plane of the least cost, any other costing more by the squared distance of the parameters at least *)
Definition fits (l : list vec3) (k : vec3) : Prop :=
  forall x, cost l k + dot (vsub x k) (vsub x k) <= cost l x.

(** a point within one grid width of a node, the far side excluded *)
Definition window (x0 y0 dx dy : R) (i j : Z) (p : vec3) : Prop :=
  x0 + (IZR i - 1) * dx <= vx p < x0 + (IZR i + 1) * dx /\ y0 + (IZR j - 1) * dy <= vy p < y0 + (IZR j + 1) * dy.
Definition in_window (x0 y0 dx dy : R) (i j : Z) (p : vec3) : bool :=
  (if Rle_dec (x0 + (IZR i - 1) * dx) (vx p) then true else false) && (if Rlt_dec (vx p) (x0 + (IZR i + 1) * dx) then true else false) &&
  (if Rle_dec (y0 + (IZR j - 1) * dy) (vy p) then true else false) && (if Rlt_dec (vy p) (y0 + (IZR j + 1) * dy) then true else false).
Lemma in_window_iff x0 y0 dx dy i j p : in_window x0 y0 dx dy i j p = true <-> window x0 y0 dx dy i j p.
Proof.
  unfold in_window, window. destruct (Rle_dec _ _), (Rlt_dec _ _), (Rle_dec _ _), (Rlt_dec _ _); cbn; split; intros H; try discriminate; try reflexivity; repeat split; try assumption; exfalso; tauto.
Qed.

(** squared errors of the points, each against the plane fitted to the points so far including it *)
Inductive online : list vec3 -> R -> Prop :=
| on_nil : online nil 0
| on_snoc l s p k : online l s -> fits (l ++ p :: nil) k ->
    online (l ++ p :: nil) (s + (plane_z k (vx p) (vy p) - vz p) * (plane_z k (vx p) (vy p) - vz p)).

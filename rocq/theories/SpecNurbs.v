(** Vocabulary for rational spline surfaces. *)
From Verif Require Export SpecGeom SpecFrame SpecBox SpecShape SpecMesh SpecHull.
From Coq Require Import List.
Open Scope R_scope.

(** knot [i] of a knot vector *)
Definition knot_of (ks : list R) (i : nat) : R := nth i ks 0.
(** a knot vector for [n] control points and degree [o]: of the right length, not decreasing, with a domain of positive length *)
Definition good_knots (o n : nat) (ks : list R) : Prop :=
  (o < n)%nat /\ length ks = (n + o + 1)%nat /\ (forall i j, (i <= j < length ks)%nat -> knot_of ks i <= knot_of ks j) /\ knot_of ks o < knot_of ks n.
Definition in_domain (o n : nat) (ks : list R) (t : R) : Prop := knot_of ks o <= t <= knot_of ks n.
(** the first and the last knots are repeated so that the spline ends at its first and last control points *)
Definition clamped (o n : nat) (ks : list R) : Prop :=
  (forall i, (i <= o)%nat -> knot_of ks i = knot_of ks o) /\ (forall i, (n <= i < length ks)%nat -> knot_of ks i = knot_of ks n).
(** [seg] finds a knot interval of positive length about every parameter of the domain *)
Definition finds (seg : nat -> list R -> R -> nat) : Prop := forall o n ks t, good_knots o n ks -> in_domain o n ks t ->
  (o <= seg o ks t < n)%nat /\ knot_of ks (seg o ks t) <= t <= knot_of ks (S (seg o ks t)) /\ knot_of ks (seg o ks t) < knot_of ks (S (seg o ks t)).

(** surfaces *)
Definition on_ellipsoid (f : frame3) (r : vec3) (p : vec3) : Prop := exists q,
  (vx q / vx r) * (vx q / vx r) + (vy q / vy r) * (vy q / vy r) + (vz q / vz r) * (vz q / vz r) = 1 /\ p = act f q.
(** base disk and side of a cone *)
Definition on_cone (c v : vec3) (r : R) (p : vec3) : Prop := exists t w,
  0 <= t <= 1 /\ dot (vsub v c) w = 0 /\ (norm w = (1 - t) * r \/ (t = 0 /\ norm w <= r)) /\ p = vadd (vadd c (vscale t (vsub v c))) w.
(** torus about the axis through [c] with unit direction [az]: the tube of radius [r] about the circle of radius [rr] *)
Definition on_torus (c az : vec3) (rr r : R) (p : vec3) : Prop := exists h w,
  dot az w = 0 /\ (norm w - rr) * (norm w - rr) + h * h = r * r /\ p = vadd (vadd c w) (vscale h az).
(** filled ellipse about [c] in the plane of [u0], [u1] *)
Definition in_cap (c : vec3) (r0 r1 : R) (u0 u1 : vec3) (p : vec3) : Prop := exists a b,
  (a / r0) * (a / r0) + (b / r1) * (b / r1) <= 1 /\ p = vadd (vadd c (vscale a u0)) (vscale b u1).
Definition in_open_cap (c : vec3) (r0 r1 : R) (u0 u1 : vec3) (p : vec3) : Prop := exists a b,
  (a / r0) * (a / r0) + (b / r1) * (b / r1) < 1 /\ p = vadd (vadd c (vscale a u0)) (vscale b u1).
(** top and bottom faces of a box of the given frame and spans *)
Definition on_lid (f : frame3) (d : vec3) (p : vec3) : Prop := exists q,
  Rabs (vx q) <= vx d / 2 /\ Rabs (vy q) <= vy d / 2 /\ Rabs (vz q) = vz d / 2 /\ p = act f q.
Definition on_open_lid (f : frame3) (d : vec3) (p : vec3) : Prop := exists q,
  Rabs (vx q) < vx d / 2 /\ Rabs (vy q) < vy d / 2 /\ Rabs (vz q) = vz d / 2 /\ p = act f q.

(** degree, knots and number of slices of one direction: zBSplineParam (ZM) *)
Record bspl := BS { bs_order : nat; bs_knot : list R; bs_slice : nat }.
(** include/zeo/zeo_nurbs3d.h 20-43: the net as a function of the two numbers, with its sizes *)
Record cell := CPC { nc_cp : vec3; nc_w : R }.
Record nurbs := NU { nu_0 : bspl; nu_1 : bspl; nu_n0 : nat; nu_n1 : nat; nu_net : nat -> nat -> cell }.
(** a surface with knot vectors in good order, and its parameters *)
Definition good_nurbs (n : nurbs) : Prop :=
  good_knots (bs_order (nu_0 n)) (nu_n0 n) (bs_knot (nu_0 n)) /\ good_knots (bs_order (nu_1 n)) (nu_n1 n) (bs_knot (nu_1 n)).
Definition in_params (n : nurbs) (u v : R) : Prop :=
  in_domain (bs_order (nu_0 n)) (nu_n0 n) (bs_knot (nu_0 n)) u /\ in_domain (bs_order (nu_1 n)) (nu_n1 n) (bs_knot (nu_1 n)) v.
(** its control points *)
Definition control_points (n : nurbs) : list vec3 := map (fun ij => nc_cp (nu_net n (fst ij) (snd ij))) (list_prod (seq 0 (nu_n0 n)) (seq 0 (nu_n1 n))).
Definition weights_from (a : R) (n : nurbs) : Prop := forall i j, (i < nu_n0 n)%nat -> (j < nu_n1 n)%nat -> a <= nc_w (nu_net n i j).
(** the points evaluated on the parameters of the surface are exactly those of a set *)
Definition traces (ev : R -> R -> option (option vec3)) (n : nurbs) (S : vec3 -> Prop) : Prop :=
  (forall u v, in_params n u v -> exists p, ev u v = Some (Some p) /\ S p) /\ (forall p, S p -> exists u v, in_params n u v /\ ev u v = Some (Some p)).
(** those points belong to one set and take in another *)
Definition traces_between (ev : R -> R -> option (option vec3)) (n : nurbs) (S1 S2 : vec3 -> Prop) : Prop :=
  (forall u v, in_params n u v -> exists p, ev u v = Some (Some p) /\ S2 p) /\ (forall p, S1 p -> exists u v, in_params n u v /\ ev u v = Some (Some p)).
(** along a parameter the evaluated point has a derivative, the given vector *)
Definition travels (ev : R -> option (option vec3)) (t : R) (d : vec3) : Prop := exists g : R -> vec3,
  (exists e, 0 < e /\ forall x, Rabs (x - t) < e -> ev x = Some (Some (g x))) /\
  derivable_pt_lim (fun x => vx (g x)) t (vx d) /\ derivable_pt_lim (fun x => vy (g x)) t (vy d) /\ derivable_pt_lim (fun x => vz (g x)) t (vz d).
(** a parameter which is not a knot *)
Definition off_knots (ks : list R) (t : R) : Prop := forall i, (i < length ks)%nat -> knot_of ks i <> t.
(** an end of a direction whose first and last knots are repeated just often enough, and the number of its control point *)
Definition simple_ends (o n : nat) (ks : list R) : Prop := clamped o n ks /\ knot_of ks o < knot_of ks (S o) /\ knot_of ks (n - 1) < knot_of ks n.
Definition at_end (o n : nat) (ks : list R) (t : R) (i : nat) : Prop := (t = knot_of ks o /\ i = O) \/ (t = knot_of ks n /\ i = (n - 1)%nat).
(** the parameter [k] parts out of [m] along the domain *)
Definition part_way (o n : nat) (ks : list R) (m k : nat) : R := knot_of ks o + (knot_of ks n - knot_of ks o) * (INR k / INR m).

(** Property C60: rational spline surfaces. *)
From Verif Require Import Base Spec SpecMesh SpecShape SpecHull SpecNurbs ModelNurbs FactsVec FactsNurbs FactsNurbs2 FactsNurbs5 FactsNurbs6 FactsNurbs7 FactsNurbs8 FactsNurbs9 FactsNurbs10 FactsNurbs11.
From Coq Require Import List Lra Lia.
Import ListNotations.
Open Scope R_scope.

(** * C60 NURBS surfaces *)
Theorem C60_alloc : forall s1 s2 o1 o2 sl, (zNURBS3DAlloc s1 s2 o1 o2 sl = None <-> (s1 <= o1 \/ s2 <= o2)%nat) /\
  forall n, zNURBS3DAlloc s1 s2 o1 o2 sl = Some n -> good_nurbs n /\ simple_ends o1 s1 (bs_knot (nu_0 n)) /\ simple_ends o2 s2 (bs_knot (nu_1 n)) /\ bs_order (nu_0 n) = o1 /\ bs_order (nu_1 n) = o2 /\ nu_n0 n = s1 /\ nu_n1 n = s2 /\
    (forall u v, in_params n u v <-> 0 <= u <= INR (s1 - o1) /\ 0 <= v <= INR (s2 - o2)) /\ (forall i j, nc_w (nu_net n i j) = 1).
Proof. exact nurbs_alloc. Qed.
Print Assumptions C60_alloc.
Theorem C60_defined : forall seg n u v, finds seg -> good_nurbs n -> in_params n u v -> weights_from zTOL n -> exists p, zNURBS3DVec seg n u v = Some (Some p).
Proof. exact vec_defined. Qed.
Print Assumptions C60_defined.
(** points of a surface belong to the convex hull of its control points *)
Theorem C60_hull : forall seg n u v p, finds seg -> good_nurbs n -> in_params n u v -> weights_from 0 n -> zNURBS3DVec seg n u v = Some (Some p) -> convex_hull (control_points n) p.
Proof. exact vec_hull. Qed.
Print Assumptions C60_hull.
Theorem C60_corner : forall seg n u v i j, finds seg -> good_nurbs n -> simple_ends (bs_order (nu_0 n)) (nu_n0 n) (bs_knot (nu_0 n)) -> simple_ends (bs_order (nu_1 n)) (nu_n1 n) (bs_knot (nu_1 n)) ->
  at_end (bs_order (nu_0 n)) (nu_n0 n) (bs_knot (nu_0 n)) u i -> at_end (bs_order (nu_1 n)) (nu_n1 n) (bs_knot (nu_1 n)) v j -> zTOL <= Rabs (nc_w (nu_net n i j)) ->
  in_params n u v /\ zNURBS3DVec seg n u v = Some (Some (nc_cp (nu_net n i j))).
Proof. exact nurbs_corner. Qed.
Print Assumptions C60_corner.
Theorem C60_xform : forall seg n f u v, zNURBS3DVec seg (zNURBS3DXform n f) u v = option_map (option_map (act f)) (zNURBS3DVec seg n u v).
Proof. exact xform_vec. Qed.
Print Assumptions C60_xform.
Theorem C60_xforminv : forall seg n f u v p, isometry (fatt f) -> (zNURBS3DVec seg (zNURBS3DXformInv n f) u v = Some (Some p) <-> zNURBS3DVec seg n u v = Some (Some (act f p))).
Proof. exact xforminv_vec. Qed.
Print Assumptions C60_xforminv.
Theorem C60_mirror : forall seg n axis u v, (axis < 3)%nat -> zNURBS3DVec seg (zNURBS3DMirror n axis) u v = option_map (option_map (reflect3 axis)) (zNURBS3DVec seg n u v).
Proof. exact mirror_vec. Qed.
Print Assumptions C60_mirror.
(** the tangents are the directions of the partial derivatives, the normal is orthogonal to both and right-handed *)
Theorem C60_tangent : forall seg n u v, finds seg -> good_nurbs n -> in_params n u v -> weights_from zTOL n -> off_knots (bs_knot (nu_0 n)) u -> off_knots (bs_knot (nu_1 n)) v ->
  exists p nn t1 t2 k1 k2, zNURBS3DVecTSpace seg n u v = Some (Some (p, nn, t1, t2)) /\ zNURBS3DVec seg n u v = Some (Some p) /\
    0 < k1 /\ travels (fun x => zNURBS3DVec seg n x v) u (vscale k1 t1) /\ 0 < k2 /\ travels (fun x => zNURBS3DVec seg n u x) v (vscale k2 t2) /\
    (norm t1 = 1 \/ negligible t1) /\ (norm t2 = 1 \/ negligible t2) /\ (nn = v3zero \/ (norm nn = 1 /\ dot nn t1 = 0 /\ dot nn t2 = 0 /\ 0 < dot nn (cross t1 t2))).
Proof. exact tangents. Qed.
Print Assumptions C60_tangent.
Theorem C60_mesh : forall seg n, finds seg -> good_nurbs n -> weights_from zTOL n -> let n0 := bs_slice (nu_0 n) in let n1 := bs_slice (nu_1 n) in (0 < n0)%nat -> (0 < n1)%nat ->
  exists m, zNURBS3DToPH seg n = Some m /\ length (m_verts m) = m_nv m /\ length (m_faces m) = m_nf m /\ m_nv m = ((n0 + 1) * (n1 + 1))%nat /\ m_nf m = (2 * (n0 * n1))%nat /\
    (forall i j, (i <= n0)%nat -> (j <= n1)%nat -> exists p, nth_error (m_verts m) (i * (n1 + 1) + j) = Some p /\
       zNURBS3DVec seg n (part_way (bs_order (nu_0 n)) (nu_n0 n) (bs_knot (nu_0 n)) n0 i) (part_way (bs_order (nu_1 n)) (nu_n1 n) (bs_knot (nu_1 n)) n1 j) = Some (Some p)) /\
    (forall f, List.In f (m_faces m) <-> exists i j, (i < n0)%nat /\ (j < n1)%nat /\
       (f = (i * (n1 + 1) + j, (i + 1) * (n1 + 1) + j, (i + 1) * (n1 + 1) + (j + 1))%nat \/ f = (i * (n1 + 1) + j, (i + 1) * (n1 + 1) + (j + 1), i * (n1 + 1) + (j + 1))%nat)).
Proof. exact nurbs_mesh. Qed.
Print Assumptions C60_mesh.
(** what the search of the closest point guarantees *)
Theorem C60_closest : forall seg iter n p d nn u v, good_nurbs n -> zNURBS3DClosest seg iter n p = Some (d, nn, u, v) ->
  d = dist p nn /\ (exists u0 v0, in_params n u0 v0 /\ zNURBS3DVec seg n u0 v0 = Some (Some nn)) /\ in_params n u v.
Proof. exact nurbs_closest. Qed.
Print Assumptions C60_closest.
(** it does not find the closest point: another point of the surface is ten times nearer *)
Theorem C60_closest_refuted : forall seg iter, finds seg -> exists n p d nn u v u' v' q, good_nurbs n /\ weights_from 1 n /\ zNURBS3DClosest seg (S iter) n p = Some (d, nn, u, v) /\ in_params n u' v' /\ zNURBS3DVec seg n u' v' = Some (Some q) /\ 10 * dist p q = d.
Proof. exact nurbs_closest_refuted. Qed.
Print Assumptions C60_closest_refuted.
(** the surface made for an ellipsoid is exactly the ellipsoid *)
Theorem C60_ellipsoid : forall seg e sl, finds seg -> 0 < vx (elrad e) -> 0 < vy (elrad e) -> 0 < vz (elrad e) ->
  exists n, zNURBS3DEllips e sl = Some n /\ good_nurbs n /\ traces (zNURBS3DVec seg n) n (on_ellipsoid (elf e) (elrad e)).
Proof. exact ellips_traces. Qed.
Print Assumptions C60_ellipsoid.
Theorem C60_sphere : forall seg s sl, finds seg -> 0 < srad s -> exists n, zNURBS3DSphere s sl = Some n /\ good_nurbs n /\ traces (zNURBS3DVec seg n) n (fun p => dist (scen s) p = srad s).
Proof. exact sphere_traces. Qed.
Print Assumptions C60_sphere.
Theorem C60_torus : forall seg c ax ay az rr r sl, finds seg -> isometry (cols3 ax ay az) -> 0 <= r <= rr ->
  exists n, zNURBS3DTorus c ax ay az rr r sl = Some n /\ good_nurbs n /\ traces (zNURBS3DVec seg n) n (on_torus c az rr r).
Proof. exact torus_traces. Qed.
Print Assumptions C60_torus.
Theorem C60_cone : forall seg c sl, finds seg -> 3 * zTOL <= norm (vsub (kvert c) (kcen c)) -> 0 < krad c ->
  exists n, zNURBS3DCone c sl = Some n /\ good_nurbs n /\ traces (zNURBS3DVec seg n) n (on_cone (kcen c) (kvert c) (krad c)).
Proof. exact cone_traces. Qed.
Print Assumptions C60_cone.
(** the surface made for an elliptic cylinder consists of the two caps *)
Theorem C60_ecyl : forall seg c sl, finds seg -> 0 < er0 c -> 0 < er1 c ->
  exists n, zNURBS3DECyl c sl = Some n /\ good_nurbs n /\ traces_between (zNURBS3DVec seg n) n
    (fun p => in_open_cap (ec0 c) (er0 c) (er1 c) (ev0 c) (ev1 c) p \/ in_open_cap (ec1 c) (er0 c) (er1 c) (ev0 c) (ev1 c) p)
    (fun p => in_cap (ec0 c) (er0 c) (er1 c) (ev0 c) (ev1 c) p \/ in_cap (ec1 c) (er0 c) (er1 c) (ev0 c) (ev1 c) p).
Proof. exact ecyl_traces. Qed.
Print Assumptions C60_ecyl.
(** its side is missing *)
Theorem C60_ecyl_refuted : forall seg c sl, finds seg -> 0 < er0 c -> 0 < er1 c -> 0 < norm (vsub (ec1 c) (ec0 c)) -> radial_basis (vsub (ec1 c) (ec0 c)) (ev0 c) (ev1 c) ->
  exists n, zNURBS3DECyl c sl = Some n /\ good_nurbs n /\ forall u v t a b, in_params n u v -> 0 < t < 1 ->
    zNURBS3DVec seg n u v <> Some (Some (vadd (vadd (ec0 c) (vscale t (vsub (ec1 c) (ec0 c)))) (vadd (vscale a (ev0 c)) (vscale b (ev1 c))))).
Proof. exact ecyl_side. Qed.
Print Assumptions C60_ecyl_refuted.
Theorem C60_cyl : forall seg c sl, finds seg -> 3 * zTOL <= norm (vsub (cc1 c) (cc0 c)) -> 0 < crad c ->
  exists u0 u1 n, radial_basis (vsub (cc1 c) (cc0 c)) u0 u1 /\ zNURBS3DCyl c sl = Some n /\ good_nurbs n /\
    traces_between (zNURBS3DVec seg n) n (fun p => in_open_cap (cc0 c) (crad c) (crad c) u0 u1 p \/ in_open_cap (cc1 c) (crad c) (crad c) u0 u1 p)
      (fun p => in_cap (cc0 c) (crad c) (crad c) u0 u1 p \/ in_cap (cc1 c) (crad c) (crad c) u0 u1 p).
Proof. exact cyl_traces. Qed.
Print Assumptions C60_cyl.
(** the surface made for a box consists of two of its faces *)
Theorem C60_box : forall seg b sl, finds seg -> 0 <= vx (bspan b) -> 0 <= vy (bspan b) -> 0 <= vz (bspan b) ->
  exists n, zNURBS3DBox b sl = Some n /\ good_nurbs n /\ traces_between (zNURBS3DVec seg n) n (on_open_lid (bframe b) (bspan b)) (on_lid (bframe b) (bspan b)).
Proof. exact box_traces. Qed.
Print Assumptions C60_box.
(** the other four are missing *)
Theorem C60_box_refuted : forall seg b sl, finds seg -> isometry (fatt (bframe b)) -> 0 <= vx (bspan b) -> 0 <= vy (bspan b) -> 0 <= vz (bspan b) ->
  exists n, zNURBS3DBox b sl = Some n /\ good_nurbs n /\ forall u v q, in_params n u v -> Rabs (vz q) < vz (bspan b) / 2 -> zNURBS3DVec seg n u v <> Some (Some (act (bframe b) q)).
Proof. exact box_side. Qed.
Print Assumptions C60_box_refuted.
(** a segment search as assumed *)
Example C60_ex_finds : finds lin_seg.
Proof. exact lin_finds. Qed.
(** a surface with positive weights in good order, and parameters off its knots *)
Example C60_ex_good : good_nurbs bowl /\ weights_from zTOL bowl /\ in_params bowl (1 / 3) (1 / 4) /\ off_knots (bs_knot (nu_0 bowl)) (1 / 3) /\ off_knots (bs_knot (nu_1 bowl)) (1 / 4).
Proof.
  split; [apply bowl_good|]. split; [intros i j I J; pose proof (proj2 bowl_good i j I J) as W; pose proof zTOL_small; Lra.lra|].
  split; [unfold in_params, in_domain, knot_of, bowl; cbn [nu_0 nu_1 nu_n0 nu_n1 bs_order bs_knot nth]; Lra.lra|].
  split; intros i H; cbn [bowl nu_0 nu_1 bs_knot length] in H; unfold knot_of; cbn [bowl nu_0 nu_1 bs_knot];
  do 4 (destruct i as [|i]; [cbn [nth]; Lra.lra|]); first [exfalso; Lia.lia|do 2 (destruct i as [|i]; [cbn [nth]; Lra.lra|]); exfalso; Lia.lia].
Qed.
(** ends of a fresh surface *)
Example C60_ex_ends : simple_ends 2 5 (knotInit 2 5) /\ at_end 2 5 (knotInit 2 5) 3 4.
Proof. destruct (knot_init_good 2 5 ltac:(Lia.lia)) as (_ & A & _ & B). split; [exact A|]. right. rewrite B. cbn. split; [Lra.lra|reflexivity]. Qed.
(** a radial basis *)
Example C60_ex_basis : radial_basis (V3 0 0 2) (V3 1 0 0) (V3 0 1 0).
Proof. unfold radial_basis, dot. cbn [vx vy vz]. repeat split; Lra.lra. Qed.

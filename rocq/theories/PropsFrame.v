(** Properties C14-C17, C61, C62: frames, spatial vectors, 6x6 matrices. *)
From Verif Require Import FactsFrame.
From Coq Require Import ZArith.
Open Scope R_scope.

(** * C14 *)

(** frames act on points; cascading composes, the inverse undoes, distances are kept *)
Theorem C14_points : forall f g p q,
  zXform3D f p = act f p /\ zXform3D (zFrame3DCascade f g) p = zXform3D f (zXform3D g p) /\
  zXform3D (zFrame3DInv f) p = zXform3DInv f p /\
  (rigid f -> zXform3D f (zXform3DInv f p) = p /\ zXform3DInv f (zXform3D f p) = p /\
     dist (zXform3D f p) (zXform3D f q) = dist p q /\
     dist (zXform3DInv f p) (zXform3DInv f q) = dist p q).
Proof. exact frame_points. Qed.
Print Assumptions C14_points.
Theorem C14_group : forall f g h,
  ZFRAME3DIDENT = fid /\
  zFrame3DCascade fid f = f /\ zFrame3DCascade f fid = f /\
  zFrame3DCascade (zFrame3DCascade f g) h = zFrame3DCascade f (zFrame3DCascade g h) /\
  (rigid f -> zFrame3DCascade f (zFrame3DInv f) = fid /\ zFrame3DCascade (zFrame3DInv f) f = fid /\
    zFrame3DInv (zFrame3DInv f) = f /\ rigid (zFrame3DInv f) /\ (rigid g -> rigid (zFrame3DCascade f g))).
Proof. exact frame_full. Qed.
Print Assumptions C14_group.
(** the relative frame is the one and only frame cascading back *)
Theorem C14_relative : forall f g, rigid f ->
  zFrame3DCascade f (zFrame3DXform f g) = g /\
  (forall h, zFrame3DCascade f h = g -> h = zFrame3DXform f g) /\
  zFrame3DXform f f = fid.
Proof. exact frame_relative. Qed.
Print Assumptions C14_relative.
(** twisting a frame by its error from another gives the other (attitude difference as in C09) *)
Theorem C14_twist_error : forall f1 f2, rotation (fatt f1) -> rotation (fatt f2) ->
  let r := mmul (fatt f1) (mtr (fatt f2)) in
  norm (skewv r) = 0 \/ 4 * zTOL <= norm (skewv r) ->
  zFrame3DTwist f2 (zFrame3DError f1 f2) = f1.
Proof. exact twist_error. Qed.
Print Assumptions C14_twist_error.
Example C14_ex : rigid (F3 (V3 1 2 3) (M3 0 1 0 (-1) 0 0 0 0 1)).
Proof. unfold rigid; cbn [fatt]. split; [spec_unfold; f_equal; ring|spec_unfold; ring]. Qed.

(** * C15 *)

(** modified DH: move a along x, turn alpha about x, move d along z, turn theta about z *)
Theorem C15_dh : forall a alpha d theta,
  zFrame3DFromDH a alpha d theta =
  zFrame3DCascade (ftrans (V3 a 0 0)) (zFrame3DCascade (frot (rotx alpha))
    (zFrame3DCascade (ftrans (V3 0 0 d)) (frot (rotz theta)))) /\
  rigid (zFrame3DFromDH a alpha d theta).
Proof. exact dh_spec. Qed.
Print Assumptions C15_dh.
Theorem C15_roundtrip : forall f, rigid f ->
  zVec6DToFrame3DZYX (zFrame3DToVec6DZYX f) = f /\ zVec6DToFrame3DZYZ (zFrame3DToVec6DZYZ f) = f /\
  (norm (skewv (fatt f)) = 0 \/ 4 * zTOL <= norm (skewv (fatt f)) -> zVec6DToFrame3DAA (zFrame3DToVec6DAA f) = f).
Proof. exact posangle_roundtrip. Qed.
Print Assumptions C15_roundtrip.
Theorem C15_rigid : forall v,
  rigid (zVec6DToFrame3DZYX v) /\ rigid (zVec6DToFrame3DZYZ v) /\ rigid (zVec6DToFrame3DAA v) /\
  fpos (zVec6DToFrame3DZYX v) = lin v /\ fpos (zVec6DToFrame3DZYZ v) = lin v /\ fpos (zVec6DToFrame3DAA v) = lin v.
Proof. exact posangle_rigid. Qed.
Print Assumptions C15_rigid.

(** * C16 *)

Theorem C16_shift : forall w t p q,
  zVec6DLinShift t p = twist_at t p /\ zVec6DAngShift w p = wrench_from w p /\
  zVec6DLinShiftDRC t p = twist_at t p /\ zVec6DAngShiftDRC w p = wrench_from w p /\
  zVec6DInnerProd (zVec6DAngShift w p) t = zVec6DInnerProd w (zVec6DLinShift t p) /\
  zVec6DInnerProd (zVec6DAngShift w (vneg p)) (zVec6DLinShift t p) = zVec6DInnerProd w t /\
  zVec6DLinShift (zVec6DLinShift t p) q = zVec6DLinShift t (vadd p q) /\
  zVec6DAngShift (zVec6DAngShift w p) q = zVec6DAngShift w (vadd p q) /\
  zVec6DLinShift (zVec6DLinShift t p) (vneg p) = t /\
  zVec6DAngShift (zVec6DAngShift w p) (vneg p) = w.
Proof. exact shift_full. Qed.
Print Assumptions C16_shift.
(** the wrench transform is the adjoint of the twist transform, for any frame *)
Theorem C16_dual : forall f w t,
  zXform6DLin f t = turn6 (mtr (fatt f)) (twist_at t (fpos f)) /\
  zXform6DAng f w = wrench_from (turn6 (fatt f) w) (fpos f) /\
  zVec6DInnerProd (zXform6DAng f w) t = zVec6DInnerProd w (zXform6DLin f t).
Proof. exact xform6_dual. Qed.
Print Assumptions C16_dual.
Theorem C16_group : forall f g w t, rigid f -> rigid g ->
  zXform6DAng (zFrame3DCascade f g) w = zXform6DAng f (zXform6DAng g w) /\
  zXform6DLin (zFrame3DCascade f g) t = zXform6DLin g (zXform6DLin f t) /\
  zXform6DAng (zFrame3DInv f) (zXform6DAng f w) = w /\ zXform6DAng f (zXform6DAng (zFrame3DInv f) w) = w /\
  zXform6DLin (zFrame3DInv f) (zXform6DLin f t) = t /\ zXform6DLin f (zXform6DLin (zFrame3DInv f) t) = t.
Proof. exact xform6_group. Qed.
Print Assumptions C16_group.

(** * C17 *)

Theorem C17_mulvec : forall m v i, (i < 6)%nat ->
  vnth6 (zMulMat6DVec6D m v) i = sum6 (fun j => mnth6 m i j * vnth6 v j) /\
  vnth6 (zMulMat6DTVec6D m v) i = sum6 (fun j => mnth6 m j i * vnth6 v j).
Proof. exact mat6_mulvec. Qed.
Print Assumptions C17_mulvec.
Theorem C17_mulmat : forall m n i j, (i < 6)%nat -> (j < 6)%nat ->
  mnth6 (zMulMat6DMat6D m n) i j = sum6 (fun k => mnth6 m i k * mnth6 n k j) /\
  mnth6 (zMulMat6DTMat6D m n) i j = sum6 (fun k => mnth6 m k i * mnth6 n k j) /\
  mnth6 (zMulMat6DMat6DT m n) i j = sum6 (fun k => mnth6 m i k * mnth6 n j k).
Proof. exact mat6_mul. Qed.
Print Assumptions C17_mulmat.
Theorem C17_entries : forall m n v w k i j, (i < 6)%nat -> (j < 6)%nat ->
  mnth6 (zMat6DT m) i j = mnth6 m j i /\ mnth6 (zMat6DDyad v w) i j = vnth6 v i * vnth6 w j /\
  mnth6 (zMat6DAdd m n) i j = mnth6 m i j + mnth6 n i j /\
  mnth6 (zMat6DSub m n) i j = mnth6 m i j - mnth6 n i j /\
  mnth6 (zMat6DMul m k) i j = k * mnth6 m i j.
Proof. exact mat6_entries. Qed.
Print Assumptions C17_entries.
Theorem C17_div : forall m k i j, (i < 6)%nat -> (j < 6)%nat ->
  (k = 0 -> zMat6DDiv m k = None) /\
  (k <> 0 -> exists d, zMat6DDiv m k = Some d /\ k * mnth6 d i j = mnth6 m i j).
Proof. exact mat6_div. Qed.
Print Assumptions C17_div.
Theorem C17_rowcol : forall m i, (i < 6)%nat ->
  (exists r, zMat6DRow m (Z.of_nat i) = Some r /\ forall j, (j < 6)%nat -> vnth6 r j = mnth6 m i j) /\
  (exists c, zMat6DCol m (Z.of_nat i) = Some c /\ forall j, (j < 6)%nat -> vnth6 c j = mnth6 m j i).
Proof. exact mat6_rowcol. Qed.
Print Assumptions C17_rowcol.
Theorem C17_badindex : forall m i, (i < 0 \/ 5 < i)%Z -> zMat6DRow m i = None /\ zMat6DCol m i = None.
Proof. exact mat6_badindex. Qed.
Print Assumptions C17_badindex.
(** the entries determine the matrix, so the above pin down every result *)
Theorem C17_ext : forall m n, (forall i j, (i < 6)%nat -> (j < 6)%nat -> mnth6 m i j = mnth6 n i j) -> m = n.
Proof. exact mat6_ext. Qed.
Print Assumptions C17_ext.

(** * C61 *)

Theorem C61_translate : forall f x y z, zFrame3DTranslateView f x y z = zFrame3DCascade f (ftrans (V3 x y z)).
Proof. exact translate_view. Qed.
Print Assumptions C61_translate.
Theorem C61_rotate : forall f t x y z, 2 * zTOL <= norm (V3 x y z) -> 2 * zTOL <= t ->
  exists n, norm n = 1 /\ vscale (norm (V3 x y z)) n = V3 x y z /\
    zFrame3DRotateView f t x y z = zFrame3DCascade f (frot (rodm n t)).
Proof. exact rotate_view. Qed.
Print Assumptions C61_rotate.
Theorem C61_rotate_noaxis : forall f t x y z, negligible (V3 x y z) -> zFrame3DRotateView f t x y z = f.
Proof. exact rotate_view_neg. Qed.
Print Assumptions C61_rotate_noaxis.
(** the view sits at the eye and is a proper rotation; its x axis is the unit vector from
    the centre to the eye, its z axis the part of the upper vector normal to it *)
Theorem C61_lookat : forall f ex ey ez cx cy cz ux uy uz,
  let g := V3 (ex - cx) (ey - cy) (ez - cz) in
  let u := V3 ux uy uz in
  let o := vsub u (vscale (dot u g / dot g g) g) in
  ~ negligible g -> ~ negligible o ->
  let f' := zFrame3DLookAtView f ex ey ez cx cy cz ux uy uz in
  fpos f' = V3 ex ey ez /\ rotation (fatt f') /\
  vscale (norm g) (col0 (fatt f')) = g /\
  vscale (norm o) (col2 (fatt f')) = o.
Proof. exact lookat_view. Qed.
Print Assumptions C61_lookat.
(** the header promises an x axis along (center - eye): eye 0, center (1,0,0) gives (-1,0,0) *)
Theorem C61_lookat_documented_axis_refuted :
  let f' := zFrame3DLookAtView fid 0 0 0 1 0 0 0 0 1 in
  vscale (norm (V3 1 0 0)) (col0 (fatt f')) = vneg (V3 1 0 0).
Proof. exact lookat_refuted. Qed.
Print Assumptions C61_lookat_documented_axis_refuted.
Theorem C61_gaze : forall f cx cy cz d pan tilt roll,
  let f' := zFrame3DGazeAndRotateView f cx cy cz d pan tilt roll in
  fatt f' = mmul (fatt f) (mmul (rotz pan) (mmul (roty tilt) (rotx roll))) /\
  fpos f' = vadd (V3 cx cy cz) (vscale d (col0 (fatt f'))) /\
  (rigid f -> rigid f' /\ dist (fpos f') (V3 cx cy cz) = Rabs d).
Proof. exact gaze_view. Qed.
Print Assumptions C61_gaze.

(** * C62 *)

Theorem C62_create : forall a b c d i j, (i < 3)%nat -> (j < 3)%nat ->
  let m := zMat6DCreate a b c d in
  mnth6 m i j = mnth a i j /\ mnth6 m i (j + 3) = mnth b i j /\
  mnth6 m (i + 3) j = mnth c i j /\ mnth6 m (i + 3) (j + 3) = mnth d i j.
Proof. exact mat6_create. Qed.
Print Assumptions C62_create.
Theorem C62_put : forall m r c x i j, (i < 6)%nat -> (j < 6)%nat ->
  mnth6 (zMat6DPutMat3D m r c x) i j =
  if eqb r (Nat.leb 3 i) && eqb c (Nat.leb 3 j) then mnth x (i mod 3) (j mod 3) else mnth6 m i j.
Proof. exact mat6_put. Qed.
Print Assumptions C62_put.
(** the C++ constructor agrees with zMat6DCreate only when the off-diagonal blocks are equal *)
Theorem C62_constructor : forall a b c d, zMat6D_constructor a b c d = zMat6DCreate a b c d <-> b = c.
Proof. exact mat6_ctor. Qed.
Print Assumptions C62_constructor.
(** the printed table is the matrix only when the off-diagonal blocks are equal *)
Theorem C62_print : forall m, (forall i j, (i < 6)%nat -> (j < 6)%nat ->
    nth j (nth i (zMat6DFPrint m) []) 0 = mnth6 m i j) <-> la m = al m.
Proof. exact mat6_print. Qed.
Print Assumptions C62_print.
Example C62_ex : mid <> mzero.
Proof. intros H. apply (f_equal cxx) in H. spec_unfold. lra. Qed.

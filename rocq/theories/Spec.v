(** Data types shared by model and specification, and the specification
    vocabulary: textbook vector and matrix algebra, written without reference
    to the C functions. *)
From Coq Require Export String.
From Verif Require Export Base.
Open Scope R_scope.

(** ** data (layout of the C structs) *)

(** zVec2D, include/zeo/zeo_vec2d.h 17-21 *)
Record vec2 := V2 { x2 : R; y2 : R }.
(** zVec3D, include/zeo/zeo_vec3d.h 17-21 *)
Record vec3 := V3 { vx : R; vy : R; vz : R }.
(** zMat3D, include/zeo/zeo_mat3d.h 22-30: stored by columns; [cab] is the
    component [c.ab], that is column a, row b. *)
Record mat3 := M3 { cxx : R; cxy : R; cxz : R;
                    cyx : R; cyy : R; cyz : R;
                    czx : R; czy : R; czz : R }.
(** zMat2D, include/zeo/zeo_mat2d.h: stored by columns as well *)
Record mat2 := M2 { dxx : R; dxy : R; dyx : R; dyy : R }.
(** zEP, include/zeo/zeo_ep.h: Euler parameter (unit quaternion) *)
Record quat := Q4 { qw : R; qx : R; qy : R; qz : R }.
(** zVec6D: linear and angular part *)
Record vec6 := V6 { lin : vec3; ang : vec3 }.
(** zFrame3D: position and attitude *)
Record frame3 := F3 { fpos : vec3; fatt : mat3 }.
(** zFrame2D, zCoord2D *)
Record frame2 := F2 { fpos2 : vec2; fatt2 : mat2 }.
Record coord2 := C2 { cpos2 : vec2; cang2 : R }.

(** ** specification vocabulary *)

Definition v3zero := V3 0 0 0.
Definition vadd (a b : vec3) := V3 (vx a + vx b) (vy a + vy b) (vz a + vz b).
Definition vsub (a b : vec3) := V3 (vx a - vx b) (vy a - vy b) (vz a - vz b).
Definition vneg (a : vec3) := V3 (- vx a) (- vy a) (- vz a).
Definition vscale (k : R) (a : vec3) := V3 (k * vx a) (k * vy a) (k * vz a).
Definition dot (a b : vec3) : R := vx a * vx b + vy a * vy b + vz a * vz b.
Definition cross (a b : vec3) : vec3 :=
  V3 (vy a * vz b - vz a * vy b) (vz a * vx b - vx a * vz b) (vx a * vy b - vy a * vx b).
Definition norm2 (a : vec3) : R := dot a a.
Definition norm (a : vec3) : R := sqrt (dot a a).
Definition dist (a b : vec3) : R := norm (vsub a b).
Definition det3v (a b c : vec3) : R := dot a (cross b c).

Definition v2zero := V2 0 0.
Definition vadd2 (a b : vec2) := V2 (x2 a + x2 b) (y2 a + y2 b).
Definition vsub2 (a b : vec2) := V2 (x2 a - x2 b) (y2 a - y2 b).
Definition vneg2 (a : vec2) := V2 (- x2 a) (- y2 a).
Definition vscale2 (k : R) (a : vec2) := V2 (k * x2 a) (k * y2 a).
Definition dot2 (a b : vec2) : R := x2 a * x2 b + y2 a * y2 b.
Definition cross2 (a b : vec2) : R := x2 a * y2 b - y2 a * x2 b.
Definition norm_2 (a : vec2) : R := sqrt (dot2 a a).
Definition dist2 (a b : vec2) : R := norm_2 (vsub2 a b).

(** matrices given by rows *)
Definition rows3 a11 a12 a13 a21 a22 a23 a31 a32 a33 : mat3 :=
  M3 a11 a21 a31 a12 a22 a32 a13 a23 a33.
(** columns *)
Definition cols3 (a b c : vec3) : mat3 :=
  M3 (vx a) (vy a) (vz a) (vx b) (vy b) (vz b) (vx c) (vy c) (vz c).
Definition col0 (m : mat3) := V3 (cxx m) (cxy m) (cxz m).
Definition col1 (m : mat3) := V3 (cyx m) (cyy m) (cyz m).
Definition col2 (m : mat3) := V3 (czx m) (czy m) (czz m).
Definition row0 (m : mat3) := V3 (cxx m) (cyx m) (czx m).
Definition row1 (m : mat3) := V3 (cxy m) (cyy m) (czy m).
Definition row2 (m : mat3) := V3 (cxz m) (cyz m) (czz m).
(** entry in row r, column c (indices 0,1,2) *)
Definition vnth (v : vec3) (i : nat) : R :=
  match i with 0%nat => vx v | 1%nat => vy v | _ => vz v end.
Definition mnth (m : mat3) (r c : nat) : R :=
  match c with 0%nat => vnth (col0 m) r | 1%nat => vnth (col1 m) r | _ => vnth (col2 m) r end.

Definition mid : mat3 := rows3 1 0 0 0 1 0 0 0 1.
Definition mzero : mat3 := rows3 0 0 0 0 0 0 0 0 0.
Definition mtr (m : mat3) : mat3 := cols3 (row0 m) (row1 m) (row2 m).
Definition mvec (m : mat3) (v : vec3) : vec3 :=
  V3 (dot (row0 m) v) (dot (row1 m) v) (dot (row2 m) v).
Definition mmul (a b : mat3) : mat3 :=
  cols3 (mvec a (col0 b)) (mvec a (col1 b)) (mvec a (col2 b)).
Definition madd (a b : mat3) : mat3 :=
  cols3 (vadd (col0 a) (col0 b)) (vadd (col1 a) (col1 b)) (vadd (col2 a) (col2 b)).
Definition mscale (k : R) (a : mat3) : mat3 :=
  cols3 (vscale k (col0 a)) (vscale k (col1 a)) (vscale k (col2 a)).
Definition mdet (m : mat3) : R := dot (col0 m) (cross (col1 m) (col2 m)).
Definition mtrace (m : mat3) : R := cxx m + cyy m + czz m.
Definition symmetric (m : mat3) : Prop := mtr m = m.
(** cross-product matrix *)
Definition hat (w : vec3) : mat3 := rows3 0 (- vz w) (vy w) (vz w) 0 (- vx w) (- vy w) (vx w) 0.
Definition outer (a b : vec3) : mat3 := cols3 (vscale (vx b) a) (vscale (vy b) a) (vscale (vz b) a).
(** proper rotation matrices *)
Definition rotation (m : mat3) : Prop := mmul (mtr m) m = mid /\ mdet m = 1.

Definition rotx (t : R) : mat3 := rows3 1 0 0 0 (cos t) (- sin t) 0 (sin t) (cos t).
Definition roty (t : R) : mat3 := rows3 (cos t) 0 (sin t) 0 1 0 (- sin t) 0 (cos t).
Definition rotz (t : R) : mat3 := rows3 (cos t) (- sin t) 0 (sin t) (cos t) 0 0 0 1.

(** 2x2 matrices *)
Definition rows2 a11 a12 a21 a22 : mat2 := M2 a11 a21 a12 a22.
Definition mid2 : mat2 := rows2 1 0 0 1.
Definition mvec2 (m : mat2) (v : vec2) : vec2 :=
  V2 (dxx m * x2 v + dyx m * y2 v) (dxy m * x2 v + dyy m * y2 v).
Definition mmul2 (a b : mat2) : mat2 :=
  M2 (dxx a * dxx b + dyx a * dxy b) (dxy a * dxx b + dyy a * dxy b)
     (dxx a * dyx b + dyx a * dyy b) (dxy a * dyx b + dyy a * dyy b).
Definition mtr2 (m : mat2) : mat2 := M2 (dxx m) (dyx m) (dxy m) (dyy m).
Definition mdet2 (m : mat2) : R := dxx m * dyy m - dyx m * dxy m.
Definition rot2 (t : R) : mat2 := rows2 (cos t) (- sin t) (sin t) (cos t).
Definition rotation2 (m : mat2) : Prop := mmul2 (mtr2 m) m = mid2 /\ mdet2 m = 1.

(** quaternions *)
Definition qnorm2 (q : quat) : R := qw q * qw q + qx q * qx q + qy q * qy q + qz q * qz q.
Definition qunit (q : quat) : Prop := qnorm2 q = 1.
Definition qneg (q : quat) : quat := Q4 (- qw q) (- qx q) (- qy q) (- qz q).
Definition qdot (p q : quat) : R := qw p * qw q + qx p * qx q + qy p * qy q + qz p * qz q.
Definition qscale (k : R) (q : quat) : quat := Q4 (k * qw q) (k * qx q) (k * qy q) (k * qz q).
Definition qadd (p q : quat) : quat := Q4 (qw p + qw q) (qx p + qx q) (qy p + qy q) (qz p + qz q).
(** Hamilton product *)
Definition qmul (p q : quat) : quat :=
  Q4 (qw p * qw q - qx p * qx q - qy p * qy q - qz p * qz q)
     (qw p * qx q + qx p * qw q + qy p * qz q - qz p * qy q)
     (qw p * qy q - qx p * qz q + qy p * qw q + qz p * qx q)
     (qw p * qz q + qx p * qy q - qy p * qx q + qz p * qw q).

(** the conjugate *)
Definition qconj (q : quat) : quat := Q4 (qw q) (- qx q) (- qy q) (- qz q).
(** vector part *)
Definition qvec (q : quat) : vec3 := V3 (qx q) (qy q) (qz q).

(** a vector is negligible when all its components are under the tolerance *)
Definition negligible (v : vec3) : Prop := Rabs (vx v) < zTOL /\ Rabs (vy v) < zTOL /\ Rabs (vz v) < zTOL.
Definition negligible2 (v : vec2) : Prop := Rabs (x2 v) < zTOL /\ Rabs (y2 v) < zTOL.
(** rotation of v about unit axis n by angle t (Rodrigues' formula) *)
Definition rodrigues (n : vec3) (t : R) (v : vec3) : vec3 :=
  vadd (vadd (vscale (cos t) v) (vscale ((1 - cos t) * dot n v) n)) (vscale (sin t) (cross n v)).
(** the pairs of opposite directions, by name *)
Definition opposite_names : list (string * string) :=
  [("right","left"); ("forward","backward"); ("up","down"); ("cw","ccw")]%string.
Definition opposite (a b : string) : Prop :=
  In (a, b) opposite_names \/ In (b, a) opposite_names.

(** all entries are at most l in magnitude *)
Definition entries_le (m : mat3) (l : R) : Prop := forall r c, Rabs (mnth m r c) <= l.
(** well-conditioned: the determinant is not small against the cube of the entries *)
Definition well_conditioned (m : mat3) : Prop :=
  exists l, entries_le m l /\ 0 < l /\ zTOL * (l * l * l) <= Rabs (mdet m).

(** matrix of the rotation about unit axis n by angle t *)
Definition rodm (n : vec3) (t : R) : mat3 :=
  madd (madd (mscale (cos t) mid) (mscale (1 - cos t) (outer n n))) (mscale (sin t) (hat n)).
(** skew part of a matrix, as a vector *)
Definition skewv (m : mat3) : vec3 := V3 (cyz m - czy m) (czx m - cxz m) (cxy m - cyx m).
(** sum of squares of the off-diagonal entries of a symmetric matrix (upper half) *)
Definition offsq (m : mat3) : R := cxy m * cxy m + cyz m * cyz m + czx m * czx m.
(** all off-diagonal entries (upper half) are smaller than e *)
Definition offs_lt (m : mat3) (e : R) : Prop := Rabs (cxy m) < e /\ Rabs (cyz m) < e /\ Rabs (czx m) < e.

(** ** tactics *)

Lemma vec3_ext a b : vx a = vx b -> vy a = vy b -> vz a = vz b -> a = b.
Proof. destruct a, b; simpl; intros; subst; reflexivity. Qed.
Lemma vec2_ext a b : x2 a = x2 b -> y2 a = y2 b -> a = b.
Proof. destruct a, b; simpl; intros; subst; reflexivity. Qed.

Ltac pcbn := cbn [vx vy vz x2 y2 cxx cxy cxz cyx cyy cyz czx czy czz dxx dxy dyx dyy
  qw qx qy qz lin ang fpos fatt fpos2 fatt2 cpos2 cang2 fst snd] in *.
Ltac refold3 := repeat match goal with
  | |- context [match ?v with V3 x _ _ => x end] => change (match v with V3 x _ _ => x end) with (vx v)
  | H : context [match ?v with V3 x _ _ => x end] |- _ => change (match v with V3 x _ _ => x end) with (vx v) in H
  | |- context [match ?v with V3 _ x _ => x end] => change (match v with V3 _ x _ => x end) with (vy v)
  | H : context [match ?v with V3 _ x _ => x end] |- _ => change (match v with V3 _ x _ => x end) with (vy v) in H
  | |- context [match ?v with V3 _ _ x => x end] => change (match v with V3 _ _ x => x end) with (vz v)
  | H : context [match ?v with V3 _ _ x => x end] |- _ => change (match v with V3 _ _ x => x end) with (vz v) in H
  | |- context [match ?v with M3 x _ _ _ _ _ _ _ _ => x end] => change (match v with M3 x _ _ _ _ _ _ _ _ => x end) with (cxx v)
  | H : context [match ?v with M3 x _ _ _ _ _ _ _ _ => x end] |- _ => change (match v with M3 x _ _ _ _ _ _ _ _ => x end) with (cxx v) in H
  | |- context [match ?v with M3 _ x _ _ _ _ _ _ _ => x end] => change (match v with M3 _ x _ _ _ _ _ _ _ => x end) with (cxy v)
  | H : context [match ?v with M3 _ x _ _ _ _ _ _ _ => x end] |- _ => change (match v with M3 _ x _ _ _ _ _ _ _ => x end) with (cxy v) in H
  | |- context [match ?v with M3 _ _ x _ _ _ _ _ _ => x end] => change (match v with M3 _ _ x _ _ _ _ _ _ => x end) with (cxz v)
  | H : context [match ?v with M3 _ _ x _ _ _ _ _ _ => x end] |- _ => change (match v with M3 _ _ x _ _ _ _ _ _ => x end) with (cxz v) in H
  | |- context [match ?v with M3 _ _ _ x _ _ _ _ _ => x end] => change (match v with M3 _ _ _ x _ _ _ _ _ => x end) with (cyx v)
  | H : context [match ?v with M3 _ _ _ x _ _ _ _ _ => x end] |- _ => change (match v with M3 _ _ _ x _ _ _ _ _ => x end) with (cyx v) in H
  | |- context [match ?v with M3 _ _ _ _ x _ _ _ _ => x end] => change (match v with M3 _ _ _ _ x _ _ _ _ => x end) with (cyy v)
  | H : context [match ?v with M3 _ _ _ _ x _ _ _ _ => x end] |- _ => change (match v with M3 _ _ _ _ x _ _ _ _ => x end) with (cyy v) in H
  | |- context [match ?v with M3 _ _ _ _ _ x _ _ _ => x end] => change (match v with M3 _ _ _ _ _ x _ _ _ => x end) with (cyz v)
  | H : context [match ?v with M3 _ _ _ _ _ x _ _ _ => x end] |- _ => change (match v with M3 _ _ _ _ _ x _ _ _ => x end) with (cyz v) in H
  | |- context [match ?v with M3 _ _ _ _ _ _ x _ _ => x end] => change (match v with M3 _ _ _ _ _ _ x _ _ => x end) with (czx v)
  | H : context [match ?v with M3 _ _ _ _ _ _ x _ _ => x end] |- _ => change (match v with M3 _ _ _ _ _ _ x _ _ => x end) with (czx v) in H
  | |- context [match ?v with M3 _ _ _ _ _ _ _ x _ => x end] => change (match v with M3 _ _ _ _ _ _ _ x _ => x end) with (czy v)
  | H : context [match ?v with M3 _ _ _ _ _ _ _ x _ => x end] |- _ => change (match v with M3 _ _ _ _ _ _ _ x _ => x end) with (czy v) in H
  | |- context [match ?v with M3 _ _ _ _ _ _ _ _ x => x end] => change (match v with M3 _ _ _ _ _ _ _ _ x => x end) with (czz v)
  | H : context [match ?v with M3 _ _ _ _ _ _ _ _ x => x end] |- _ => change (match v with M3 _ _ _ _ _ _ _ _ x => x end) with (czz v) in H
  end.
Ltac refold2 := repeat match goal with
  | |- context [match ?v with V2 x _ => x end] => change (match v with V2 x _ => x end) with (x2 v)
  | H : context [match ?v with V2 x _ => x end] |- _ => change (match v with V2 x _ => x end) with (x2 v) in H
  | |- context [match ?v with V2 _ x => x end] => change (match v with V2 _ x => x end) with (y2 v)
  | H : context [match ?v with V2 _ x => x end] |- _ => change (match v with V2 _ x => x end) with (y2 v) in H
  | |- context [match ?v with M2 x _ _ _ => x end] => change (match v with M2 x _ _ _ => x end) with (dxx v)
  | H : context [match ?v with M2 x _ _ _ => x end] |- _ => change (match v with M2 x _ _ _ => x end) with (dxx v) in H
  | |- context [match ?v with M2 _ x _ _ => x end] => change (match v with M2 _ x _ _ => x end) with (dxy v)
  | H : context [match ?v with M2 _ x _ _ => x end] |- _ => change (match v with M2 _ x _ _ => x end) with (dxy v) in H
  | |- context [match ?v with M2 _ _ x _ => x end] => change (match v with M2 _ _ x _ => x end) with (dyx v)
  | H : context [match ?v with M2 _ _ x _ => x end] |- _ => change (match v with M2 _ _ x _ => x end) with (dyx v) in H
  | |- context [match ?v with M2 _ _ _ x => x end] => change (match v with M2 _ _ _ x => x end) with (dyy v)
  | H : context [match ?v with M2 _ _ _ x => x end] |- _ => change (match v with M2 _ _ _ x => x end) with (dyy v) in H
  end.
Ltac spec_unfold :=
  cbv beta iota delta [symmetric mmul mvec mtr madd mscale mdet mtrace hat outer rows3 cols3
    mid mzero rotx roty rotz det3v dist norm2
    vadd vsub vneg vscale dot cross col0 col1 col2 row0 row1 row2 v3zero
    vx vy vz cxx cxy cxz cyx cyy cyz czx czy czz] in *; refold3.
Ltac spec_unfold2 :=
  cbv beta iota delta [mmul2 mvec2 mtr2 mdet2 rows2 mid2 rot2 dist2
    vadd2 vsub2 vneg2 vscale2 dot2 cross2 v2zero x2 y2 dxx dxy dyx dyy] in *; refold2.

Ltac refold3g := repeat match goal with
  | |- context [match ?v with V3 x _ _ => x end] => change (match v with V3 x _ _ => x end) with (vx v)
  | |- context [match ?v with V3 _ x _ => x end] => change (match v with V3 _ x _ => x end) with (vy v)
  | |- context [match ?v with V3 _ _ x => x end] => change (match v with V3 _ _ x => x end) with (vz v)
  | |- context [match ?v with M3 x _ _ _ _ _ _ _ _ => x end] => change (match v with M3 x _ _ _ _ _ _ _ _ => x end) with (cxx v)
  | |- context [match ?v with M3 _ x _ _ _ _ _ _ _ => x end] => change (match v with M3 _ x _ _ _ _ _ _ _ => x end) with (cxy v)
  | |- context [match ?v with M3 _ _ x _ _ _ _ _ _ => x end] => change (match v with M3 _ _ x _ _ _ _ _ _ => x end) with (cxz v)
  | |- context [match ?v with M3 _ _ _ x _ _ _ _ _ => x end] => change (match v with M3 _ _ _ x _ _ _ _ _ => x end) with (cyx v)
  | |- context [match ?v with M3 _ _ _ _ x _ _ _ _ => x end] => change (match v with M3 _ _ _ _ x _ _ _ _ => x end) with (cyy v)
  | |- context [match ?v with M3 _ _ _ _ _ x _ _ _ => x end] => change (match v with M3 _ _ _ _ _ x _ _ _ => x end) with (cyz v)
  | |- context [match ?v with M3 _ _ _ _ _ _ x _ _ => x end] => change (match v with M3 _ _ _ _ _ _ x _ _ => x end) with (czx v)
  | |- context [match ?v with M3 _ _ _ _ _ _ _ x _ => x end] => change (match v with M3 _ _ _ _ _ _ _ x _ => x end) with (czy v)
  | |- context [match ?v with M3 _ _ _ _ _ _ _ _ x => x end] => change (match v with M3 _ _ _ _ _ _ _ _ x => x end) with (czz v)
  end.
Ltac spec_unfold_g :=
  cbv beta iota delta [symmetric mmul mvec mtr madd mscale mdet mtrace hat outer rows3 cols3
    mid mzero rotx roty rotz det3v dist norm2
    vadd vsub vneg vscale dot cross col0 col1 col2 row0 row1 row2 v3zero
    vx vy vz cxx cxy cxz cyx cyy cyz czx czy czz]; refold3g.

(** ** elementary facts about the vocabulary *)

Lemma dot_comm a b : dot a b = dot b a.
Proof. spec_unfold; ring. Qed.
Lemma norm2_nonneg a : 0 <= norm2 a.
Proof. spec_unfold. nra. Qed.
Lemma dot_self_nonneg a : 0 <= dot a a.
Proof. apply norm2_nonneg. Qed.
Lemma norm_nonneg a : 0 <= norm a.
Proof. apply sqrt_pos. Qed.
Lemma norm_sqr a : norm a * norm a = dot a a.
Proof. apply sqrt_sqrt. apply norm2_nonneg. Qed.
Lemma dot_self_zero a : dot a a = 0 -> a = v3zero.
Proof.
  destruct a as [x y z]; spec_unfold; intros H.
  destruct (sum3_sqr_zero x y z H) as (-> & -> & ->). reflexivity.
Qed.
Lemma norm_zero_iff a : norm a = 0 <-> a = v3zero.
Proof.
  split; intros H.
  - apply dot_self_zero. rewrite <- norm_sqr, H. ring.
  - subst. unfold norm. replace (dot v3zero v3zero) with 0 by (spec_unfold; ring). apply sqrt_0.
Qed.
Lemma norm_pos a : a <> v3zero -> 0 < norm a.
Proof.
  intros H. destruct (norm_nonneg a) as [K|K]; auto.
  symmetry in K. apply (proj1 (norm_zero_iff a)) in K. contradiction.
Qed.
Lemma norm_scale k a : norm (vscale k a) = Rabs k * norm a.
Proof.
  unfold norm. replace (dot (vscale k a) (vscale k a)) with (Rsqr k * dot a a)
    by (unfold Rsqr; spec_unfold; ring).
  rewrite sqrt_mult; [|apply Rle_0_sqr|apply dot_self_nonneg].
  rewrite sqrt_Rsqr_abs. reflexivity.
Qed.
Lemma cauchy a b : dot a b * dot a b <= dot a a * dot b b.
Proof.
  assert (H : dot a a * dot b b - dot a b * dot a b = dot (cross a b) (cross a b)) by (spec_unfold; ring).
  pose proof (dot_self_nonneg (cross a b)). lra.
Qed.
Lemma cauchy_norm a b : Rabs (dot a b) <= norm a * norm b.
Proof.
  rewrite <- (Rabs_right (norm a * norm b)).
  - apply sqr_le_abs. pose proof (cauchy a b). rewrite <- !norm_sqr in H. lra.
  - pose proof (norm_nonneg a). pose proof (norm_nonneg b). nra.
Qed.
Lemma dot_le_norm a b : dot a b <= norm a * norm b.
Proof. pose proof (cauchy_norm a b). pose proof (Rle_abs (dot a b)). lra. Qed.
Lemma norm_triangle a b : norm (vadd a b) <= norm a + norm b.
Proof.
  pose proof (norm_nonneg a). pose proof (norm_nonneg b). pose proof (norm_nonneg (vadd a b)).
  assert (norm (vadd a b) * norm (vadd a b) <= (norm a + norm b) * (norm a + norm b)).
  { rewrite norm_sqr. replace (dot (vadd a b) (vadd a b)) with (dot a a + 2 * dot a b + dot b b)
      by (spec_unfold; ring).
    pose proof (dot_le_norm a b). pose proof (norm_sqr a). pose proof (norm_sqr b). nra. }
  nra.
Qed.
Lemma dist_sym a b : dist a b = dist b a.
Proof. unfold dist, norm. f_equal. spec_unfold; ring. Qed.
Lemma dist_triangle a b c : dist a c <= dist a b + dist b c.
Proof.
  unfold dist. replace (vsub a c) with (vadd (vsub a b) (vsub b c)).
  - apply norm_triangle.
  - destruct a, b, c. spec_unfold. f_equal; ring.
Qed.
Lemma norm_le_of_sqr a b : dot a a <= dot b b -> norm a <= norm b.
Proof. intros H. apply sqrt_le_1; auto using dot_self_nonneg. Qed.
Lemma norm_ge_comp a : Rabs (vx a) <= norm a /\ Rabs (vy a) <= norm a /\ Rabs (vz a) <= norm a.
Proof.
  pose proof (norm_nonneg a) as Hn. pose proof (norm_sqr a) as Hs.
  rewrite <- (Rabs_right (norm a)) by lra.
  repeat split; apply sqr_le_abs; rewrite Hs; spec_unfold; nra.
Qed.
Lemma norm_unit a : dot a a = 1 <-> norm a = 1.
Proof.
  split; intros H.
  - unfold norm. rewrite H. apply sqrt_1.
  - rewrite <- norm_sqr, H. ring.
Qed.

Lemma dot2_nonneg a : 0 <= dot2 a a.
Proof. spec_unfold2; nra. Qed.
Lemma norm_2_nonneg a : 0 <= norm_2 a.
Proof. apply sqrt_pos. Qed.
Lemma norm_2_sqr a : norm_2 a * norm_2 a = dot2 a a.
Proof. apply sqrt_sqrt, dot2_nonneg. Qed.

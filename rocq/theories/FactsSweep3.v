(** Box; surfaces of revolution closed by two poles (sphere, ellipsoid, capsule). *)
From Verif Require Import Base Spec SpecGeom SpecFrame SpecBox SpecShape SpecMesh SpecSweep ModelMesh FactsVec FactsAlg FactsElem FactsPH FactsPH4 FactsMesh FactsMesh2 FactsMesh3 FactsMesh4 FactsMesh5 FactsMesh6 FactsSweep FactsSweep2.
From Coq Require Import Lia Lra.
Open Scope R_scope.

(** how far [x] is before the face abc *)
Definition height (a b c x : vec3) : R := dot (tri_normal a b c) (vsub x a).
Definition affine (o e1 e2 e3 : vec3) (v : vec3) : vec3 := vadd o (vadd (vscale (vx v) e1) (vadd (vscale (vy v) e2) (vscale (vz v) e3))).
Lemma height_affine o e1 e2 e3 a b c x :
  height (affine o e1 e2 e3 a) (affine o e1 e2 e3 b) (affine o e1 e2 e3 c) (affine o e1 e2 e3 x) = spread e1 e2 e3 * height a b c x.
Proof. unfold height, affine, spread, tri_normal. clear. spec_unfold. ring. Qed.
Lemma height_turn a b c x : height a c b x = - height a b c x.
Proof. unfold height, tri_normal. clear. spec_unfold. ring. Qed.
Lemma height_cyc a b c x : height b c a x = height a b c x.
Proof. unfold height, tri_normal. clear. spec_unfold. ring. Qed.

(** ** box *)
Definition bcorner (h : vec3) (i : nat) : vec3 :=
  V3 (if xorb (Nat.testbit i 0) (Nat.testbit i 1) then - vx h else vx h) (if Nat.testbit i 1 then - vy h else vy h) (if Nat.testbit i 2 then - vz h else vz h).
Lemma xform_affine f v : zXform3D f v = affine (fpos f) (col0 (fatt f)) (col1 (fatt f)) (col2 (fatt f)) v.
Proof. unfold zXform3D, affine. rewrite zadd_spec. clear. apply vec3_ext; unfold zMulMat3DVec3D; spec_unfold; ring. Qed.
Lemma box_corners_ok h : 0 < vx h -> 0 < vy h -> 0 < vz h -> forall a b c, List.In (a, b, c) box_faces ->
  height (bcorner h a) (bcorner h b) (bcorner h c) v3zero < 0 /\ forall k, (k < 8)%nat -> height (bcorner h a) (bcorner h b) (bcorner h c) (bcorner h k) <= 0.
Proof.
  intros X Y Z. assert (P : 0 < vx h * vy h * vz h) by (apply Rmult_lt_0_compat; [apply Rmult_lt_0_compat|]; auto).
  set (D := vx h * vy h * vz h) in *.
  assert (K : forall e, e = - 4 * D -> e < 0) by (intros; lra).
  assert (K0 : forall e, e = 0 \/ e = - 8 * D -> e <= 0) by (intros; lra).
  intros a b c F. repeat (destruct F as [F|F]; [apply pair_equal_spec in F; destruct F as [F <-]; apply pair_equal_spec in F; destruct F as [<- <-]|]); try (exfalso; exact F);
  (split; [apply K; unfold D, height, tri_normal, bcorner; cbn [Nat.testbit Nat.odd Nat.even Nat.div2 xorb negb]; clear; spec_unfold; ring
          |intros k L; do 8 (destruct k as [|k]; [apply K0; unfold D, height, tri_normal, bcorner; cbn [Nat.testbit Nat.odd Nat.even Nat.div2 xorb negb]; clear;
             first [left; spec_unfold; ring | right; spec_unfold; ring]|]); lia]).
Qed.
Lemma box_mesh b : closed_mesh (m_nv (zBox3DToPH b)) (m_nf (zBox3DToPH b)) (m_verts (zBox3DToPH b)) (m_faces (zBox3DToPH b)) /\
  m_nv (zBox3DToPH b) = 8%nat /\ m_nf (zBox3DToPH b) = 12%nat /\
  (0 < mdet (fatt (bframe b)) -> 0 < vx (bspan b) -> 0 < vy (bspan b) -> 0 < vz (bspan b) ->
   outward_convex (m_verts (zBox3DToPH b)) (m_faces (zBox3DToPH b)) (fpos (bframe b))).
Proof.
  destruct box_faces_ok as (L & I & O). split; [|split; [|split]]; try reflexivity.
  - unfold closed_mesh. cbn [zBox3DToPH m_nv m_nf m_verts m_faces]. rewrite map_length, seq_length. auto.
  - intros Dt X Y Z. set (h := vscale (1 / 2) (bspan b)).
    assert (HV : forall i, zBox3DVert b i = affine (fpos (bframe b)) (col0 (fatt (bframe b))) (col1 (fatt (bframe b))) (col2 (fatt (bframe b))) (bcorner h i)).
    { intros i. unfold zBox3DVert. rewrite xform_affine. f_equal. unfold bcorner, h, zBox3DSpan. cbn [vnth]. f_equal; [destruct (xorb _ _)|destruct (Nat.testbit i 1)|destruct (Nat.testbit i 2)]; spec_unfold; ring. }
    assert (HD : spread (col0 (fatt (bframe b))) (col1 (fatt (bframe b))) (col2 (fatt (bframe b))) = mdet (fatt (bframe b))) by (unfold spread; clear; spec_unfold; ring).
    assert (H0 : fpos (bframe b) = affine (fpos (bframe b)) (col0 (fatt (bframe b))) (col1 (fatt (bframe b))) (col2 (fatt (bframe b))) v3zero) by (unfold affine; clear; apply vec3_ext; spec_unfold; ring).
    assert (exists g, (forall i, zBox3DVert b i = g (bcorner h i)) /\ fpos (bframe b) = g v3zero /\ forall a b' c x, height (g a) (g b') (g c) (g x) = mdet (fatt (bframe b)) * height a b' c x) as (g & GV & G0 & GH).
    { exists (affine (fpos (bframe b)) (col0 (fatt (bframe b))) (col1 (fatt (bframe b))) (col2 (fatt (bframe b)))). split; [exact HV|split; [exact H0|]]. intros. rewrite height_affine, HD. reflexivity. }
    intros [[i j] k] F. cbn [zBox3DToPH m_verts m_faces] in F |- *.
    pose proof (proj1 (Forall_forall _ _) I _ F) as (Li & Lj & Lk).
    destruct (box_corners_ok h) with (a := i) (b := j) (c := k) as [A B]; try exact F; try (unfold h, vscale; cbn [vx vy vz]; lra).
    unfold behind_face, before_face, face_normal, face_base, corners, vpos. rewrite !(nth_seq (zBox3DVert b)) by assumption.
    rewrite !GV. split.
    + rewrite G0. change (height (g (bcorner h i)) (g (bcorner h j)) (g (bcorner h k)) (g v3zero) < 0).
      rewrite GH. set (e := height _ _ _ _) in *. clearbody e. nra.
    + intros v V. apply in_map_iff in V. destruct V as (l & <- & Ll). apply in_seq in Ll. specialize (B l ltac:(lia)). rewrite GV.
      change (~ 0 < height (g (bcorner h i)) (g (bcorner h j)) (g (bcorner h k)) (g (bcorner h l))).
      rewrite GH. set (e := height _ _ _ _) in *. clearbody e. nra.
Qed.

(** ** surfaces of revolution: poles (0) and (m+1), rings 1..m *)
Definition rev_pt (z rho : nat -> R) (n : nat) (v : nat * nat) : vec3 :=
  V3 (rho (fst v) * cos (part_of_turn n (snd v))) (rho (fst v) * sin (part_of_turn n (snd v))) (z (fst v)).
Definition meridian_ok (m : nat) (z rho : nat -> R) : Prop :=
  rho 0%nat = 0 /\ rho (m + 1)%nat = 0 /\ 0 < z 0%nat /\ z (m + 1)%nat < 0 /\ (forall k, (1 <= k <= m)%nat -> 0 < rho k) /\
  forall k, (1 <= k < m)%nat -> 0 < z k * rho (k + 1)%nat - z (k + 1)%nat * rho k.
Lemma tube_star m n z rho : (1 <= m)%nat -> (3 <= n)%nat -> meridian_ok m z rho -> forall a b c, List.In (a, b, c) (tube_p m n) ->
  height (rev_pt z rho n a) (rev_pt z rho n b) (rev_pt z rho n c) v3zero < 0.
Proof.
  intros Hm Hn (R0 & R1 & Z0 & Z1 & RP & TP) a b c F.
  unfold tube_p in F. apply in_app_or in F. destruct F as [F|F]; [|apply in_app_or in F; destruct F as [F|F]].
  - unfold tube_cap0 in F. apply in_map_iff in F. destruct F as (j & E & L). apply in_seq in L. apply pair_equal_spec in E. destruct E as [E <-]. apply pair_equal_spec in E. destruct E as [<- <-].
    pose proof (ngon_centre n _ _ Hn (prev0_nxt n j ltac:(lia))) as T. specialize (RP 1%nat ltac:(lia)).
    unfold height, rev_pt; cbn [fst snd]. rewrite R0. set (x := part_of_turn n j) in *. set (y := part_of_turn n (prev0 n j)) in *.
    match goal with |- ?e < 0 => replace e with (- (z 0%nat * (rho 1%nat * (rho 1%nat * turnc y x)))) by (unfold tri_normal, turnc; clear; spec_unfold; ring) end.
    apply neg_prod; [exact Z0|]. apply Rmult_lt_0_compat; [exact RP|]. apply Rmult_lt_0_compat; auto.
  - unfold tube_body in F. apply in_flat_map in F. destruct F as (i & Li & F). apply in_flat_map in F. destruct F as (j & Lj & F). apply in_seq in Li. apply in_seq in Lj.
    pose proof (ngon_centre n _ _ Hn (prev0_nxt n j ltac:(lia))) as T. 
    pose proof (RP (i)%nat ltac:(lia)) as Ra. pose proof (RP (i + 1)%nat ltac:(lia)) as Rb. pose proof (TP i ltac:(lia)) as Tp.
    destruct F as [F|[F|[]]]; apply pair_equal_spec in F; destruct F as [F <-]; apply pair_equal_spec in F; destruct F as [<- <-];
    unfold height, rev_pt; cbn [fst snd]; set (x := part_of_turn n j) in *; set (y := part_of_turn n (prev0 n j)) in *; clearbody x y;
    match goal with |- ?e < 0 => 
      first [ replace e with (- (rho i * turnc y x * (z i * rho (i + 1)%nat - z (i + 1)%nat * rho i))) by (unfold tri_normal, turnc; clear; spec_unfold; ring)
            | replace e with (- (rho (i + 1)%nat * turnc y x * (z i * rho (i + 1)%nat - z (i + 1)%nat * rho i))) by (unfold tri_normal, turnc; clear; spec_unfold; ring) ] end;
    apply neg_prod; auto; apply Rmult_lt_0_compat; auto.
  - unfold tube_cap1 in F. apply in_map_iff in F. destruct F as (j & E & L). apply in_seq in L. apply pair_equal_spec in E. destruct E as [E <-]. apply pair_equal_spec in E. destruct E as [<- <-].
    pose proof (ngon_centre n _ _ Hn (prev0_nxt n j ltac:(lia))) as T. specialize (RP m ltac:(lia)).
    unfold height, rev_pt; cbn [fst snd]. rewrite R1. set (x := part_of_turn n j) in *. set (y := part_of_turn n (prev0 n j)) in *.
    match goal with |- ?e < 0 => replace e with (- ((- z (m + 1)%nat) * (rho m * (rho m * turnc y x)))) by (unfold tri_normal, turnc; clear; spec_unfold; ring) end.
    apply neg_prod; [lra|]. apply Rmult_lt_0_compat; [exact RP|]. apply Rmult_lt_0_compat; auto.
Qed.

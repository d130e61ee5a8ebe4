(** C19: calls whose arguments overlap. *)
From Verif Require Import Base Spec SpecFrame ModelAlias FactsAlias.
From Coq Require Import Lia Lra.
Open Scope R_scope.

(** Products written through temporaries: right for every choice of pointers,
    including partial overlap, and nothing else in memory changes. *)
Theorem C19_vec_any_overlap : forall m v w s,
  (let s' := p_zVec3DOuterProd m v w s in rd3 s' w = cross (rd3 s m) (rd3 s v) /\ only w 3 s s') /\
  (let s' := p_zMulMat3DVec3D m v w s in rd3 s' w = mvec (rdm3 s m) (rd3 s v) /\ only w 3 s s') /\
  (let s' := p_zMulMat3DTVec3D m v w s in rd3 s' w = mvec (mtr (rdm3 s m)) (rd3 s v) /\ only w 3 s s').
Proof. exact (fun m v w s => conj (al_outer m v w s) (conj (al_mulv m v w s) (al_multv m v w s))). Qed.
Print Assumptions C19_vec_any_overlap.
Theorem C19_mat_any_overlap : forall m1 m2 m s,
  (let s' := p_zMulMat3DMat3D m1 m2 m s in rdm3 s' m = mmul (rdm3 s m1) (rdm3 s m2) /\ only m 9 s s') /\
  (let s' := p_zMulMat3DTMat3D m1 m2 m s in rdm3 s' m = mmul (mtr (rdm3 s m1)) (rdm3 s m2) /\ only m 9 s s') /\
  (let s' := p_zMulMat3DMat3DT m1 m2 m s in rdm3 s' m = mmul (rdm3 s m1) (mtr (rdm3 s m2)) /\ only m 9 s s') /\
  (let s' := p_zMulMat2DMat2D m1 m2 m s in rdm2 s' m = mmul2 (rdm2 s m1) (rdm2 s m2) /\ only m 4 s s').
Proof. exact (fun a b m s => conj (al_mulm a b m s) (conj (al_multm a b m s) (conj (al_mulmt a b m s) (al_mulm2 a b m s)))). Qed.
Print Assumptions C19_mat_any_overlap.
Theorem C19_drc2_any_overlap : forall m v s,
  rd2 (p_zMulMat2DVec2DDRC m v s) v = mvec2 (rdm2 s m) (rd2 s v) /\
  rd2 (p_zMulMat2DTVec2DDRC m v s) v = mvec2 (mtr2 (rdm2 s m)) (rd2 s v).
Proof. exact al_drc2. Qed.
Print Assumptions C19_drc2_any_overlap.
(** Component-wise operations and the checked transpose: identical or disjoint arguments. *)
Theorem C19_same_or_apart :
  (forall m tm s, tm = m \/ apart m 9 tm 9 ->
     rdm3 (p_zMat3DT m tm s) tm = mtr (rdm3 s m) /\ only tm 9 s (p_zMat3DT m tm s)) /\
  (forall v1 v2 v s, (v = v1 \/ apart v1 3 v 3) -> (v = v2 \/ apart v2 3 v 3) ->
     rd3 (p_zVec3DAdd v1 v2 v s) v = vadd (rd3 s v1) (rd3 s v2)) /\
  (forall v1 k v2 v s, (v = v1 \/ apart v1 3 v 3) -> (v = v2 \/ apart v2 3 v 3) ->
     rd3 (p_zVec3DCat v1 k v2 v s) v = vadd (rd3 s v1) (vscale k (rd3 s v2))).
Proof. exact (conj al_t3 (conj al_add al_cat)). Qed.
Print Assumptions C19_same_or_apart.
Theorem C19_rpy_drc : forall m t s,
  rdm3 (p_zMat3DRotRollDRC m t s) m = mmul (rotx t) (rdm3 s m) /\
  rdm3 (p_zMat3DRotPitchDRC m t s) m = mmul (roty t) (rdm3 s m) /\
  rdm3 (p_zMat3DRotYawDRC m t s) m = mmul (rotz t) (rdm3 s m).
Proof. exact ip_rotrpy. Qed.
Print Assumptions C19_rpy_drc.

(** In-place calls that go wrong, each with the exact set of inputs on which it is right. *)
Theorem C19_vec2_inplace : forall v t s,
  (rd2 (p_zVec2DRot v t v s) v = mvec2 (rot2 t) (rd2 s v) <->
     sin t = 0 \/ x2 (mvec2 (rot2 t) (rd2 s v)) = x2 (rd2 s v)) /\
  (rd2 (p_zVec2DRot90CW v v s) v = V2 (y2 (rd2 s v)) (- x2 (rd2 s v)) <-> x2 (rd2 s v) = y2 (rd2 s v)) /\
  (rd2 (p_zVec2DRot90CCW v v s) v = V2 (- y2 (rd2 s v)) (x2 (rd2 s v)) <-> x2 (rd2 s v) = - y2 (rd2 s v)).
Proof. exact (fun v t s => conj (ip_rot2 v t s) (conj (ip_rot90cw v s) (ip_rot90ccw v s))). Qed.
Print Assumptions C19_vec2_inplace.
Theorem C19_interdiv2_inplace : forall v1 v2 k s, apart v1 2 v2 2 ->
  (rd2 (p_zVec2DInterDiv v1 v2 k v1 s) v1 = vadd2 (rd2 s v1) (vscale2 k (vsub2 (rd2 s v2) (rd2 s v1))) <->
     rd2 s v2 = vscale2 2 (rd2 s v1)) /\
  rd2 (p_zVec2DInterDiv v1 v2 k v2 s) v2 = vadd2 (rd2 s v1) (vscale2 k (vsub2 (rd2 s v2) (rd2 s v1))).
Proof. exact (fun v1 v2 k s H => conj (ip_interdiv1 v1 v2 k s H) (ip_interdiv2 v1 v2 k s H)). Qed.
Print Assumptions C19_interdiv2_inplace.
Theorem C19_mulvec2_inplace : forall m v s, apart m 4 v 2 ->
  (rd2 (p_zMulMat2DVec2D m v v s) v = mvec2 (rdm2 s m) (rd2 s v) <->
     dxy (rdm2 s m) = 0 \/ x2 (mvec2 (rdm2 s m) (rd2 s v)) = x2 (rd2 s v)) /\
  (rd2 (p_zMulMat2DTVec2D m v v s) v = mvec2 (mtr2 (rdm2 s m)) (rd2 s v) <->
     dyx (rdm2 s m) = 0 \/ x2 (mvec2 (mtr2 (rdm2 s m)) (rd2 s v)) = x2 (rd2 s v)).
Proof. exact (fun m v s H => conj (ip_mulv2 m v s H) (ip_multv2 m v s H)). Qed.
Print Assumptions C19_mulvec2_inplace.
Theorem C19_mat2_inplace : forall m t s,
  (rdm2 (p_zMat2DT m m s) m = mtr2 (rdm2 s m) <-> mtr2 (rdm2 s m) = rdm2 s m) /\
  (rdm2 (p_zMat2DAdj m m s) m = M2 (s (m + 3)%nat) (- s (m + 1)%nat) (- s (m + 2)%nat) (s m) <-> s m = s (m + 3)%nat) /\
  (rdm2 (p_zMat2DRot m t m s) m = mmul2 (rot2 t) (rdm2 s m) <->
     sin t = 0 \/ (dxx (mmul2 (rot2 t) (rdm2 s m)) = dxx (rdm2 s m) /\ dyx (mmul2 (rot2 t) (rdm2 s m)) = dyx (rdm2 s m))).
Proof. exact (fun m t s => conj (ip_t2 m s) (conj (ip_adj2 m s) (ip_rotm2 m t s))). Qed.
Print Assumptions C19_mat2_inplace.
(** the cascade is right on disjoint arguments; the library's own in-place
    version forgets the old position and doubles the displacement *)
Theorem C19_cascade2 :
  (forall src xf dest s, apart src 3 dest 3 -> apart xf 3 dest 3 ->
     rdc2 (p_zCoord2DCascade src xf dest s) dest =
       C2 (vadd2 (mvec2 (rot2 (cang2 (rdc2 s src))) (cpos2 (rdc2 s xf))) (cpos2 (rdc2 s src)))
          (cang2 (rdc2 s src) + cang2 (rdc2 s xf))) /\
  (forall c dc s, apart c 3 dc 3 ->
     rdc2 (p_zCoord2DCascadeDRC c dc s) c =
       C2 (vscale2 2 (mvec2 (rot2 (cang2 (rdc2 s c))) (cpos2 (rdc2 s dc)))) (cang2 (rdc2 s c) + cang2 (rdc2 s dc))) /\
  (forall c dc s, apart c 3 dc 3 ->
     (rdc2 (p_zCoord2DCascadeDRC c dc s) c =
        C2 (vadd2 (mvec2 (rot2 (cang2 (rdc2 s c))) (cpos2 (rdc2 s dc))) (cpos2 (rdc2 s c))) (cang2 (rdc2 s c) + cang2 (rdc2 s dc)) <->
      cpos2 (rdc2 s c) = mvec2 (rot2 (cang2 (rdc2 s c))) (cpos2 (rdc2 s dc)))).
Proof. exact (conj apart_cascade (conj ip_cascade ip_cascade_iff)). Qed.
Print Assumptions C19_cascade2.
Theorem C19_eprot :
  (forall ep v rv s, apart ep 4 rv 3 -> apart v 3 rv 3 ->
     rd3 (p_zEPRotVec3D ep v rv s) rv = qrotv (rdq s ep) (rd3 s v)) /\
  (forall ep v s, apart ep 4 v 3 -> let q := rdq s ep in let e := V3 (qx q) (qy q) (qz q) in qunit q ->
     (rd3 (p_zEPRotVec3D ep v v s) v = qrotv q (rd3 s v) <->
      rd3 s v = v3zero \/ (dot e (rd3 s v) = 0 /\ qw q * qw q = 1 / 2))).
Proof. exact (conj apart_ep ip_ep_iff). Qed.
Print Assumptions C19_eprot.
Theorem C19_zyxvel_inplace : forall v sa ca sb cb s, let z := rd3 s v in
  rd3 (p_zZYXVelToAngVelSC v sa ca sb cb v s) v =
    V3 (- sa * vy z + ca * cb * vz z) (ca * vy z + sa * cb * vz z) (vx z - sb * vz z) <->
  - sa * vy z + ca * cb * vz z = vx z.
Proof. exact ip_zyxvel. Qed.
Print Assumptions C19_zyxvel_inplace.
Theorem C19_rpy_inplace : forall m t s, let R := rdm3 s m in
  (rdm3 (p_zMat3DRotRoll m t m s) m = mmul (rotx t) R <->
   sin t = 0 \/ (cyy (mmul (rotx t) R) = cyy R /\ czy (mmul (rotx t) R) = czy R /\ cxy (mmul (rotx t) R) = cxy R)) /\
  (rdm3 (p_zMat3DRotPitch m t m s) m = mmul (roty t) R <->
   sin t = 0 \/ (czz (mmul (roty t) R) = czz R /\ cxz (mmul (roty t) R) = cxz R /\ cyz (mmul (roty t) R) = cyz R)) /\
  (rdm3 (p_zMat3DRotYaw m t m s) m = mmul (rotz t) R <->
   sin t = 0 \/ (cxx (mmul (rotz t) R) = cxx R /\ cyx (mmul (rotz t) R) = cyx R /\ czx (mmul (rotz t) R) = czx R)).
Proof. exact (fun m t s => conj (ip_roll m t s) (conj (ip_pitch m t s) (ip_yaw m t s))). Qed.
Print Assumptions C19_rpy_inplace.
(** the 6x6 transpose in place is right exactly for symmetric matrices *)
Theorem C19_mat6_inplace : forall m s, let s' := p_zMat6DT m m s in
  (rdm3 s' m = mtr (rdm3 s m) /\ rdm3 s' (m + 9) = mtr (rdm3 s (m + 18)) /\
   rdm3 s' (m + 18) = mtr (rdm3 s (m + 9)) /\ rdm3 s' (m + 27) = mtr (rdm3 s (m + 27))) <->
  (mtr (rdm3 s m) = rdm3 s m /\ mtr (rdm3 s (m + 9)) = rdm3 s (m + 18) /\ mtr (rdm3 s (m + 27)) = rdm3 s (m + 27)).
Proof. exact ip_t6. Qed.
Print Assumptions C19_mat6_inplace.
Theorem C19_adjvec_inplace : forall m v s, apart m 9 v 3 ->
  let x := rd3 s v in let a := rdm3 s m in
  let A := M3 (cyy a * czz a - czy a * cyz a) (czy a * cxz a - cxy a * czz a) (cxy a * cyz a - cyy a * cxz a)
              (czx a * cyz a - cyx a * czz a) (cxx a * czz a - czx a * cxz a) (cyx a * cxz a - cxx a * cyz a)
              (cyx a * czy a - czx a * cyy a) (czx a * cxy a - cxx a * czy a) (cxx a * cyy a - cyx a * cxy a) in
  let y := mvec A x in
  (rd3 (p_zMulAdjMat3DVec3D m v v s) v = y <->
   cxy A * (vx y - vx x) = 0 /\ cxz A * (vx y - vx x) + cyz A * (vy y - vy x) = 0).
Proof. exact ip_adjv. Qed.
Print Assumptions C19_adjvec_inplace.

(** hypotheses met, and concrete wrong in-place calls *)
Definition ex_mem : mem := fun a => match a with 0%nat => 1 | 1%nat => 0 | 2%nat => 0 | 3%nat => 2 | 4%nat => 1 | _ => 0 end.
Example C19_ex_apart : apart 0 3 3 3 /\ apart 0 2 2 2 /\ apart 0 4 4 3. Proof. unfold apart; lia. Qed.
(** moving (1,0) at angle 0 by (2,1) in place gives (4,2) instead of (3,1) *)
Theorem C19_cascade_drc_refuted : exists c dc s, apart c 3 dc 3 /\
  cpos2 (rdc2 (p_zCoord2DCascadeDRC c dc s) c) <>
  vadd2 (mvec2 (rot2 (cang2 (rdc2 s c))) (cpos2 (rdc2 s dc))) (cpos2 (rdc2 s c)).
Proof.
  exists 0%nat, 3%nat, ex_mem. assert (H : apart 0 3 3 3) by (unfold apart; lia). split; [exact H|].
  rewrite (ip_cascade _ _ _ H). cbn [cpos2]. unfold rdc2, rd2, ex_mem, rot2, rows2, mvec2, vscale2, vadd2; cbn.
  rewrite cos_0, sin_0. intros E. injection E. lra.
Qed.
Print Assumptions C19_cascade_drc_refuted.
(** turning (1,0) by a quarter turn clockwise in place gives (0,0) *)
Theorem C19_rot90_refuted : exists v s, rd2 (p_zVec2DRot90CW v v s) v <> V2 (y2 (rd2 s v)) (- x2 (rd2 s v)).
Proof.
  exists 0%nat, ex_mem. intros E. apply ip_rot90cw in E. unfold rd2, ex_mem in E; cbn in E. lra.
Qed.
Print Assumptions C19_rot90_refuted.

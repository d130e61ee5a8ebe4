(** Proofs about polyhedra: the functions of the library on valid meshes. *)
From Verif Require Import Base Spec SpecMesh ModelPH FactsVec FactsAlg FactsMat FactsElem FactsTri FactsTri2 FactsCentre FactsFrame FactsBox FactsObb FactsRound FactsSolid FactsPH.
Open Scope R_scope.

Definition valid_ph (ph : ph3) : Prop := indices_below (length (pverts ph)) (ph_faces ph).
Definition tri_at (vs : list vec3) (f : face) : tri3 := T3 (vpos vs (fi0 f)) (vpos vs (fi1 f)) (vpos vs (fi2 f)) (fnrm f).
Lemma nth_error_vpos vs i : (i < length vs)%nat -> nth_error vs i = Some (vpos vs i).
Proof. intros H. unfold vpos. apply nth_error_nth'. exact H. Qed.
Lemma mapM_map {A B} (g : A -> option B) (h : A -> B) l : (forall a, In a l -> g a = Some (h a)) -> mapM g l = Some (map h l).
Proof.
  intros H. induction l as [|a t IH]; [reflexivity|]. cbn [mapM map]. rewrite (H a), IH; [reflexivity| |left; reflexivity]. intros; apply H; right; assumption.
Qed.
Lemma valid_in ph f : valid_ph ph -> In f (pfaces ph) -> (fi0 f < length (pverts ph))%nat /\ (fi1 f < length (pverts ph))%nat /\ (fi2 f < length (pverts ph))%nat.
Proof.
  intros H I. unfold valid_ph, indices_below in H. rewrite Forall_forall in H. apply (H (fi0 f, fi1 f, fi2 f)). unfold ph_faces. apply in_map_iff. eauto.
Qed.
Lemma tris_ok ph : valid_ph ph -> zPH3DTris ph = Some (map (tri_at (pverts ph)) (pfaces ph)).
Proof.
  intros H. unfold zPH3DTris. apply mapM_map. intros f I. destruct (valid_in ph f H I) as (A & B & C). unfold zPH3DFaceTri.
  rewrite !nth_error_vpos by assumption. reflexivity.
Qed.
Lemma fold_rsum {A} (g : A -> R) l x : fold_left (fun v t => v + g t) l x = x + rsum g l.
Proof. revert x; induction l as [|a t IH]; intros x; cbn [fold_left]; rewrite ?rsum_nil, ?rsum_cons, ?IH; ring. Qed.
Lemma ph_volume ph : valid_ph ph -> zPH3DVolume ph = Some (vol0 (pverts ph) (ph_faces ph)).
Proof.
  intros H. unfold zPH3DVolume. rewrite tris_ok by exact H. f_equal. unfold volume_of. rewrite fold_rsum, rsum_map.
  unfold vol0, mesh_vol, ph_faces. rewrite rsum_map, Rplus_0_l. apply rsum_ext. intros f _. unfold zTri3DConeVolume, cone_vol, corners, tri_at; cbn [tv0 tv1 tv2].
  unfold vol6, det3v. zvg. reflexivity.
Qed.
Lemma ph_bary ph : valid_ph ph -> vol0 (pverts ph) (ph_faces ph) <> 0 ->
  zPH3DBarycenter ph = Some (vscale (1 / vol0 (pverts ph) (ph_faces ph)) (mom0 (pverts ph) (ph_faces ph))).
Proof.
  intros H NZ. unfold zPH3DBarycenter. rewrite tris_ok by exact H. f_equal. unfold barycenter_of.
  assert (F : forall l c v, fold_left (fun acc t => let '(c, vol) := acc in let v := zTri3DConeVolume t v3zero in
      (zVec3DAdd c (zVec3DMul (zTri3DConeBarycenter t v3zero) v), vol + v)) (map (tri_at (pverts ph)) l) (c, v) =
     (vadd c (mom0 (pverts ph) (map (fun f => (fi0 f, fi1 f, fi2 f)) l)), v + vol0 (pverts ph) (map (fun f => (fi0 f, fi1 f, fi2 f)) l))).
  { induction l as [|f t IH]; intros c v; cbn [map fold_left].
    - unfold mom0, vol0, mesh_moment, mesh_vol. cbn [vsum rsum fold_right]. f_equal; [vring|ring].
    - rewrite IH. unfold mom0, vol0, mesh_moment, mesh_vol. rewrite vsum_cons, rsum_cons. unfold zTri3DConeVolume, zTri3DConeBarycenter, tri_at; cbn [tv0 tv1 tv2 cone_moment cone_vol corners].
      zvg. f_equal.
      + replace (vadd (vadd (vadd v3zero (vpos (pverts ph) (fi0 f))) (vpos (pverts ph) (fi1 f))) (vpos (pverts ph) (fi2 f)))
          with (vadd (vadd (vadd (vpos (pverts ph) (fi0 f)) (vpos (pverts ph) (fi1 f))) (vpos (pverts ph) (fi2 f))) v3zero) by vring.
        unfold vol6, det3v. vring.
      + unfold vol6, det3v. ring. }
  rewrite F. fold (ph_faces ph). rewrite Rplus_0_l. unfold zVec3DDiv. destruct (Reqb_reflect (vol0 (pverts ph) (ph_faces ph)) 0) as [E|E]; [contradiction|].
  zvg. vring.
Qed.
Definition tp (u v : vec3) : mat3 := madd (outer v u) (mscale (- dot u v) mid).
Lemma tp_spec u v : zVec3DTripleProdToMat3D u v = tp u v.
Proof. unfold tp. destruct u as [a b c], v as [d e f]. apply mat3_ext; unfold zVec3DTripleProdToMat3D, zMat3DCreate, of_b; spec_unfold; ring. Qed.
Lemma zsub_spec a b : zMat3DSub a b = madd a (mscale (-1) b).
Proof. destruct a, b. apply mat3_ext; unfold zMat3DSub, zVec3DSub, of_b, bx, by_, bz; spec_unfold; ring. Qed.
Lemma zmul_spec a k : zMat3DMul a k = mscale k a.
Proof. destruct a. apply mat3_ext; unfold zMat3DMul, zVec3DMul, of_b, bx, by_, bz; spec_unfold; ring. Qed.
Lemma madd_assoc3 i x y z : madd (madd (madd i (mscale (-1) x)) (mscale (-1) (mscale (1/2) y))) (mscale (-1) (mscale (1/2) z)) =
  madd i (mscale (-1) (madd x (mscale (1/2) (madd y z)))).
Proof. destruct i, x, y, z. apply mat3_ext; spec_unfold; field. Qed.
Lemma coneInertiaStep_spec v1 v2 i : coneInertiaStep v1 v2 i = madd i (mscale (-1) (madd (tp v1 v1) (mscale (1/2) (madd (tp v1 v2) (tp v2 v1))))).
Proof. unfold coneInertiaStep. replace 0.5 with (1/2) by lra. rewrite !tp_spec, !zsub_spec, !zmul_spec. apply madd_assoc3. Qed.
Lemma cone_expand a b c : madd (madd (madd mzero (mscale (-1) (madd (tp a a) (mscale (1/2) (madd (tp a b) (tp b a))))))
    (mscale (-1) (madd (tp b b) (mscale (1/2) (madd (tp b c) (tp c b)))))) (mscale (-1) (madd (tp c c) (mscale (1/2) (madd (tp c a) (tp a c))))) =
  mscale (1/2) (inertia_of_second (madd (madd (madd (outer a a) (outer b b)) (outer c c)) (outer (vadd (vadd a b) c) (vadd (vadd a b) c)))).
Proof.
  destruct a as [a1 a2 a3], b as [b1 b2 b3], c as [c1 c2 c3]. unfold tp, outer, dot, vadd; cbn [vx vy vz]. unfold inertia_of_second.
  apply mat3_ext; cbv [vscale vadd dot outer madd mscale mid mzero rows3 cols3 cxx cxy cxz cyx cyy cyz czx czy czz vx vy vz row0 row1 row2 col0 col1 col2 of_b]; field.
Qed.
Lemma J_scale k S : inertia_of_second (mscale k S) = mscale k (inertia_of_second S).
Proof. destruct S. unfold inertia_of_second. mring. Qed.
Lemma cone_inertia_second t rho : zTri3DConeInertia t rho = mscale rho (inertia_of_second (cone_second v3zero (tv0 t, tv1 t, tv2 t))).
Proof.
  destruct t as [a b c n]. unfold zTri3DConeInertia; cbn [tv0 tv1 tv2 cone_second]. rewrite !coneInertiaStep_spec, zmul_spec.
  change ZMAT3DZERO with mzero. rewrite cone_expand, J_scale.
  replace (vol6 v3zero a b c) with (zVec3DGrassmannProd a b c) by (zvg; unfold vol6, det3v; clear; spec_unfold; ring).
  replace (vadd (vadd (vadd v3zero a) b) c) with (vadd (vadd a b) c) by vring.
  replace (madd (outer v3zero v3zero) (outer a a)) with (outer a a) by mring.
  generalize (inertia_of_second (madd (madd (madd (outer a a) (outer b b)) (outer c c)) (outer (vadd (vadd a b) c) (vadd (vadd a b) c)))) as S.
  generalize (zVec3DGrassmannProd a b c) as d. intros d S. destruct S. apply mat3_ext; spec_unfold; field.
Qed.
Lemma fold_msum {A} (g : A -> mat3) l x : fold_left (fun v t => zMat3DAdd v (g t)) l x = madd x (msum g l).
Proof.
  revert x; induction l as [|a t IH]; intros x; cbn [fold_left].
  - cbn [msum fold_right]. mring.
  - rewrite msum_cons, IH. change (zMat3DAdd x (g a)) with (madd x (g a)). mring.
Qed.
Lemma msum_J rho {A} (S : A -> mat3) l : msum (fun a => mscale rho (inertia_of_second (S a))) l = mscale rho (inertia_of_second (msum S l)).
Proof.
  induction l as [|a t IH]; [cbn [msum fold_right]; unfold inertia_of_second; mring|]. rewrite !msum_cons, IH. unfold inertia_of_second. mring.
Qed.
Lemma msum_map {A B} (g : A -> B) (f : B -> mat3) l : msum f (map g l) = msum (fun a => f (g a)) l.
Proof. induction l as [|a t IH]; [reflexivity|]. cbn [map]. rewrite !msum_cons, IH. reflexivity. Qed.
Lemma ph_inertia ph rho : valid_ph ph -> zPH3DInertia ph rho = Some (mscale rho (inertia_of_second (sec0 (pverts ph) (ph_faces ph)))).
Proof.
  intros H. unfold zPH3DInertia. rewrite tris_ok by exact H. f_equal. unfold inertia_of. rewrite (fold_msum (fun t => zTri3DConeInertia t rho)).
  rewrite msum_map, (msum_ext _ (fun f => mscale rho (inertia_of_second (cone_second v3zero (corners (pverts ph) (fi0 f, fi1 f, fi2 f)))))).
  - rewrite msum_J. unfold sec0, mesh_second, ph_faces. rewrite msum_map. unfold ZMAT3DZERO, of_b. mring.
  - intros f _. apply cone_inertia_second.
Qed.

(** ** the operations change vertices and face numbers as expected and refresh the normals *)
Definition fresh (ph : ph3) : Prop :=
  Forall (fun f => fnrm f = tnorm (snd (zTri3DCreate (vpos (pverts ph) (fi0 f)) (vpos (pverts ph) (fi1 f)) (vpos (pverts ph) (fi2 f))))) (pfaces ph).
Lemma remake vs fs (k : face -> face) :
  Forall (fun f => (fi0 (k f) < length vs)%nat /\ (fi1 (k f) < length vs)%nat /\ (fi2 (k f) < length vs)%nat) fs ->
  exists ph', with_faces vs (mapM (fun f => faceCalcNorm vs (k f)) fs) = Some ph' /\ pverts ph' = vs /\
    ph_faces ph' = map (fun f => (fi0 (k f), fi1 (k f), fi2 (k f))) fs /\ fresh ph'.
Proof.
  intros H. rewrite Forall_forall in H.
  rewrite (mapM_map _ (fun f => FC (fi0 (k f)) (fi1 (k f)) (fi2 (k f)) (tnorm (snd (zTri3DCreate (vpos vs (fi0 (k f))) (vpos vs (fi1 (k f))) (vpos vs (fi2 (k f)))))))).
  - eexists. split; [reflexivity|]. cbn [pverts]. split; [reflexivity|]. split; [unfold ph_faces; cbn [pfaces]; rewrite map_map; reflexivity|].
    unfold fresh; cbn [pverts pfaces]. apply Forall_forall. intros f I. apply in_map_iff in I as (g & <- & _). reflexivity.
  - intros f I. destruct (H f I) as (A & B & C). unfold faceCalcNorm, zPH3DFaceTri; cbn [pverts]. rewrite !nth_error_vpos by assumption. reflexivity.
Qed.
Lemma valid_forall ph : valid_ph ph -> Forall (fun f => (fi0 f < length (pverts ph))%nat /\ (fi1 f < length (pverts ph))%nat /\ (fi2 f < length (pverts ph))%nat) (pfaces ph).
Proof. intros H. apply Forall_forall. intros f I. apply (valid_in ph f H I). Qed.
Lemma ph_clone ph : valid_ph ph -> exists ph', zPH3DClone ph = Some ph' /\ pverts ph' = pverts ph /\ ph_faces ph' = ph_faces ph /\ fresh ph'.
Proof. intros H. apply (remake (pverts ph) (pfaces ph) (fun f => f) (valid_forall ph H)). Qed.
Lemma ph_xform ph f : valid_ph ph -> exists ph', zPH3DXform ph f = Some ph' /\ pverts ph' = map (act f) (pverts ph) /\ ph_faces ph' = ph_faces ph /\ fresh ph'.
Proof.
  intros H. unfold zPH3DXform. destruct (remake (map (zXform3D f) (pverts ph)) (pfaces ph) (fun f => f)) as (ph' & E & V & F & N).
  - rewrite map_length. apply valid_forall, H.
  - exists ph'. split; [exact E|]. split; [|split; [exact F|exact N]]. rewrite V. apply map_ext. intros; apply xform_spec.
Qed.
Lemma ph_xforminv ph f : valid_ph ph -> exists ph', zPH3DXformInv ph f = Some ph' /\ pverts ph' = map (zXform3DInv f) (pverts ph) /\ ph_faces ph' = ph_faces ph /\ fresh ph'.
Proof.
  intros H. apply (remake (map (zXform3DInv f) (pverts ph)) (pfaces ph) (fun f => f)). rewrite map_length. apply valid_forall, H.
Qed.
Lemma turn_faces fs : map (fun f => (fi0 f, fi2 f, fi1 f)) fs = map turned (map (fun f => (fi0 f, fi1 f, fi2 f)) fs).
Proof. rewrite map_map. reflexivity. Qed.
Lemma ph_flipDRC ph : valid_ph ph -> exists ph', zPH3DFlipDRC ph = Some ph' /\ pverts ph' = pverts ph /\ ph_faces ph' = map turned (ph_faces ph) /\ fresh ph'.
Proof.
  intros H. destruct (remake (pverts ph) (pfaces ph) (fun f => FC (fi0 f) (fi2 f) (fi1 f) (fnrm f))) as (ph' & E & V & F & N).
  - eapply Forall_impl; [|apply valid_forall, H]. cbn [fi0 fi1 fi2]. tauto.
  - exists ph'. split; [exact E|]. split; [exact V|]. split; [|exact N]. rewrite F. cbn [fi0 fi1 fi2]. apply turn_faces.
Qed.
Lemma ph_flip ph : valid_ph ph -> exists ph', zPH3DFlip ph = Some ph' /\ pverts ph' = pverts ph /\ ph_faces ph' = map turned (ph_faces ph) /\ fresh ph'.
Proof.
  intros H. destruct (ph_clone ph H) as (d & E & V & F & N). unfold zPH3DFlip. rewrite E.
  destruct (ph_flipDRC d) as (ph' & E' & V' & F' & N'); [unfold valid_ph; rewrite V, F; exact H|]. exists ph'. rewrite V', F', V, F. auto.
Qed.
Lemma ph_mirror ph a : valid_ph ph -> exists ph', zPH3DMirror ph a = Some ph' /\ pverts ph' = map (flip_e a) (pverts ph) /\ ph_faces ph' = map turned (ph_faces ph) /\ fresh ph'.
Proof.
  intros H. destruct (ph_clone ph H) as (d & E & V & F & N). unfold zPH3DMirror. rewrite E.
  assert (Hd : valid_ph d) by (unfold valid_ph; rewrite V, F; exact H).
  destruct (remake (map (flip_e a) (pverts d)) (pfaces d) (fun f => FC (fi0 f) (fi2 f) (fi1 f) (zVec3DRev (fnrm f)))) as (ph' & E' & V' & F' & N').
  - rewrite map_length. eapply Forall_impl; [|apply valid_forall, Hd]. cbn [fi0 fi1 fi2]. tauto.
  - exists ph'. split; [exact E'|]. rewrite V', V. split; [reflexivity|]. split; [|exact N']. rewrite F'. cbn [fi0 fi1 fi2]. rewrite turn_faces. fold (ph_faces d). rewrite F. reflexivity.
Qed.
Lemma ph_scale ph s : valid_ph ph -> exists ph', zPH3DScale ph s = Some ph' /\ pverts ph' = map (vscale s) (pverts ph) /\ ph_faces ph' = ph_faces ph.
Proof.
  intros H. destruct (ph_clone ph H) as (d & E & V & F & N). unfold zPH3DScale. rewrite E. eexists. split; [reflexivity|].
  unfold zPH3DScaleDRC; cbn [pverts]. rewrite V. split; [reflexivity|]. exact F.
Qed.

(** turning faces *)
Lemma sides_turned f : Permutation (sides (turned f)) (map opp (sides f)).
Proof. destruct f as [[a b] c]. cbn. apply (Permutation_trans (l' := [(c,b);(b,a);(a,c)])); [|].
  - apply perm_trans with [(c,b);(a,c);(b,a)]; [apply perm_swap|]. apply perm_skip, perm_swap.
  - apply perm_trans with [(b,a);(c,b);(a,c)]; [apply perm_swap|reflexivity].
Qed.
Lemma all_sides_turned fs : Permutation (all_sides (map turned fs)) (map opp (all_sides fs)).
Proof.
  induction fs as [|f t IH]; [constructor|]. unfold all_sides in *. cbn [map flat_map]. rewrite map_app. apply Permutation_app; [apply sides_turned|exact IH].
Qed.
Lemma opp_opp {A} (e : A * A) : opp (opp e) = e.
Proof. destruct e; reflexivity. Qed.
Lemma closed_turned fs : closed fs -> closed (map turned fs).
Proof.
  intros H. unfold closed in *. pose proof (all_sides_turned fs) as P.
  eapply Permutation_trans; [exact P|]. apply Permutation_sym. eapply Permutation_trans; [apply Permutation_map, P|].
  rewrite map_map. rewrite (map_ext _ (fun e => e)) by (intros; apply opp_opp). rewrite map_id. exact H.
Qed.
Lemma oriented_turned fs : oriented fs -> oriented (map turned fs).
Proof.
  intros [H N]. split; [apply closed_turned, H|]. eapply Permutation_NoDup; [|exact N]. apply Permutation_sym. eapply Permutation_trans; [apply all_sides_turned|]. apply Permutation_sym, H.
Qed.
Lemma below_turned n fs : indices_below n fs -> indices_below n (map turned fs).
Proof.
  unfold indices_below. rewrite !Forall_forall. intros H f I. apply in_map_iff in I as (g & <- & J). specialize (H g J). destruct g as [[a b] c]. cbn [turned]. tauto.
Qed.
Lemma vol_turned vs fs : vol0 vs (map turned fs) = - vol0 vs fs.
Proof.
  unfold vol0, mesh_vol. rewrite rsum_map. rewrite (rsum_ext _ (fun f => (-1) * cone_vol v3zero (corners vs f))).
  - rewrite rsum_scale. ring.
  - intros [[a b] c] _. cbn [turned corners cone_vol]. unfold vol6, det3v. spec_unfold. field.
Qed.
Lemma vsum_scale {A} k (w : A -> vec3) l : vsum (fun a => vscale k (w a)) l = vscale k (vsum w l).
Proof. induction l as [|a t IH]; [cbn [vsum fold_right]; vring|]. rewrite !vsum_cons, IH. vring. Qed.
Lemma vsum_map {A B} (g : A -> B) (f : B -> vec3) l : vsum f (map g l) = vsum (fun a => f (g a)) l.
Proof. induction l as [|a t IH]; [reflexivity|]. cbn [map]. rewrite !vsum_cons, IH. reflexivity. Qed.
Lemma mom_turned vs fs : mom0 vs (map turned fs) = vscale (-1) (mom0 vs fs).
Proof.
  unfold mom0, mesh_moment. rewrite vsum_map, <- vsum_scale. apply vsum_ext. intros [[a b] c] _. cbn [turned corners cone_moment cone_vol].
  unfold vol6, det3v. apply vec3_ext; spec_unfold; field.
Qed.
Lemma msum_scale {A} k (w : A -> mat3) l : msum (fun a => mscale k (w a)) l = mscale k (msum w l).
Proof. induction l as [|a t IH]; [cbn [msum fold_right]; mring|]. rewrite !msum_cons, IH. mring. Qed.
Lemma sec_turned vs fs : sec0 vs (map turned fs) = mscale (-1) (sec0 vs fs).
Proof.
  unfold sec0, mesh_second. rewrite msum_map, <- msum_scale. apply msum_ext. intros [[a b] c] _. cbn [turned corners cone_second].
  unfold vol6, det3v. apply mat3_ext; spec_unfold; field.
Qed.

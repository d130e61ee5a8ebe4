(** Proofs about polyhedra: volume, barycentre and inertia under motion. *)
From Verif Require Import Base Spec SpecMesh ModelPH FactsVec FactsAlg FactsMat FactsElem FactsTri FactsTri2 FactsCentre FactsFrame FactsBox FactsObb FactsRound FactsSolid FactsPH FactsPH2.
Open Scope R_scope.

Definition trace (m : mat3) : R := cxx m + cyy m + czz m.
Lemma trace_comm a b : trace (mmul a b) = trace (mmul b a).
Proof. destruct a, b. unfold trace. spec_unfold. ring. Qed.
Lemma J_def S : inertia_of_second S = madd (mscale (trace S) mid) (mscale (-1) S).
Proof. reflexivity. Qed.
Lemma J_rot m S : isometry m -> inertia_of_second (mmul m (mmul S (mtr m))) = mmul m (mmul (inertia_of_second S) (mtr m)).
Proof.
  intros H. rewrite !J_def.
  assert (T : trace (mmul m (mmul S (mtr m))) = trace S).
  { rewrite trace_comm. f_equal. rewrite <- mmul_assoc, H, mmul_id_r. reflexivity. }
  rewrite T. generalize (trace S) as k. intros k.
  assert (E : mmul m (mmul (madd (mscale k mid) (mscale (-1) S)) (mtr m)) = madd (mscale k (mmul m (mtr m))) (mscale (-1) (mmul m (mmul S (mtr m))))).
  { clear. destruct m, S. mring. }
  rewrite E, iso_r by exact H. reflexivity.
Qed.
Lemma cat_dop i k c : zMat3DCatVec3DDoubleOuterProd i k c = madd i (mscale (- k) (point_inertia c)).
Proof. destruct i, c. unfold point_inertia. apply mat3_ext; unfold zMat3DCatVec3DDoubleOuterProd; spec_unfold; ring. Qed.
Lemma pi_J c : point_inertia c = inertia_of_second (outer c c).
Proof. destruct c. unfold point_inertia, inertia_of_second. mring. Qed.
Lemma J_add a b : inertia_of_second (madd a b) = madd (inertia_of_second a) (inertia_of_second b).
Proof. destruct a, b. unfold inertia_of_second. mring. Qed.
(** second moment about the barycentre *)
Definition central (k : R) (w : vec3) (S : mat3) : mat3 := madd S (mscale (- (1 / k)) (outer w w)).
Lemma central_aff m p k w S : k <> 0 -> central k (vadd (vscale k p) (mvec m w)) (sec_aff m p k w S) = mmul m (mmul (central k w S) (mtr m)).
Proof.
  intros H. unfold central, sec_aff. 
  assert (E1 : outer (vadd (vscale k p) (mvec m w)) (vadd (vscale k p) (mvec m w)) =
    madd (madd (mscale (k * k) (outer p p)) (mscale k (madd (outer p (mvec m w)) (outer (mvec m w) p)))) (mmul m (mmul (outer w w) (mtr m)))).
  { clear. destruct m, p, w. mring. }
  rewrite E1.
  assert (E2 : mmul m (mmul (madd S (mscale (- (1 / k)) (outer w w))) (mtr m)) = madd (mmul m (mmul S (mtr m))) (mscale (- (1/k)) (mmul m (mmul (outer w w) (mtr m))))).
  { clear. generalize (outer w w). intros O. destruct m, S, O. mring. }
  rewrite E2. generalize (mmul m (mmul S (mtr m))) as A. generalize (mmul m (mmul (outer w w) (mtr m))) as B. generalize (outer p p) as C.
  generalize (madd (outer p (mvec m w)) (outer (mvec m w) p)) as D. clear - H. intros D C B A. destruct A, B, C, D. apply mat3_ext; spec_unfold; field; exact H.
Qed.
Definition pv ph := vol0 (pverts ph) (ph_faces ph).
Definition pw ph := mom0 (pverts ph) (ph_faces ph).
Definition ps ph := sec0 (pverts ph) (ph_faces ph).
Lemma ph_bary_inertia ph rho : valid_ph ph -> pv ph <> 0 ->
  zPH3DBaryInertia ph rho = Some (mscale rho (inertia_of_second (central (pv ph) (pw ph) (ps ph)))).
Proof.
  intros H NZ. unfold zPH3DBaryInertia. rewrite ph_inertia, ph_bary, ph_volume by assumption. f_equal. fold (pv ph) (pw ph) (ps ph).
  rewrite cat_dop, pi_J. unfold central. rewrite J_add, !J_scale.
  replace (outer (vscale (1 / pv ph) (pw ph)) (vscale (1 / pv ph) (pw ph))) with (mscale (1 / pv ph * (1 / pv ph)) (outer (pw ph) (pw ph))) by mring.
  rewrite J_scale. generalize (inertia_of_second (ps ph)) as A. generalize (inertia_of_second (outer (pw ph) (pw ph))) as B. generalize (pv ph) NZ. clear.
  intros k NZ B A. destruct A, B. apply mat3_ext; spec_unfold; field; exact NZ.
Qed.
Lemma rot_iso m : rotation m -> isometry m.
Proof. intros [H _]. exact H. Qed.
Lemma opt_neq {A} (a b : A) : a <> b -> Some a <> Some b. Proof. congruence. Qed.

(** affine image of a valid closed polyhedron *)
Section Moved.
Variables (ph ph' : ph3) (m : mat3) (p : vec3).
Hypothesis HV : valid_ph ph.
Hypothesis HC : closed (ph_faces ph).
Hypothesis HR : isometry m.
Hypothesis EV : pverts ph' = map (fun x => vadd p (mvec m x)) (pverts ph).
Hypothesis EF : ph_faces ph' = ph_faces ph.
Lemma mv_apex : vadd p (mvec m (mvec (mtr m) (vscale (-1) p))) = v3zero.
Proof. rewrite iso_inv_r by exact HR. vring. Qed.
Lemma mv_valid : valid_ph ph'.
Proof. unfold valid_ph. rewrite EV, EF, map_length. exact HV. Qed.
Lemma mv_vol : pv ph' = mdet m * pv ph.
Proof. unfold pv. rewrite EV, EF. apply (aff_vol m p _ _ HV HC _ mv_apex). Qed.
Lemma mv_mom : pw ph' = vscale (mdet m) (vadd (vscale (pv ph) p) (mvec m (pw ph))).
Proof. unfold pv, pw. rewrite EV, EF. apply (aff_mom m p _ _ HV HC _ mv_apex). Qed.
Lemma mv_sec : ps ph' = mscale (mdet m) (sec_aff m p (pv ph) (pw ph) (ps ph)).
Proof. unfold pv, pw, ps. rewrite EV, EF. apply (aff_sec m p _ _ HV HC _ mv_apex). Qed.
Hypothesis HD : mdet m = 1.
Lemma mv1 : pv ph' = pv ph /\ pw ph' = vadd (vscale (pv ph) p) (mvec m (pw ph)) /\ ps ph' = sec_aff m p (pv ph) (pw ph) (ps ph).
Proof. rewrite mv_vol, mv_mom, mv_sec, HD. split; [ring|]. split; [vring|]. generalize (sec_aff m p (pv ph) (pw ph) (ps ph)). intros M. destruct M. mring. Qed.
Lemma moved_mass rho : zPH3DVolume ph' = zPH3DVolume ph /\
  (zPH3DVolume ph <> Some 0 -> exists c i, zPH3DBarycenter ph = Some c /\ zPH3DBarycenter ph' = Some (vadd p (mvec m c)) /\
     zPH3DBaryInertia ph rho = Some i /\ zPH3DBaryInertia ph' rho = Some (mmul m (mmul i (mtr m)))).
Proof.
  destruct mv1 as (A & B & C). pose proof mv_valid as HV'. rewrite !ph_volume by assumption. fold (pv ph) (pv ph'). rewrite A. split; [reflexivity|].
  intros NZ. assert (NZ0 : pv ph <> 0) by (intros E; apply NZ; rewrite E; reflexivity).
  exists (vscale (1 / pv ph) (pw ph)), (mscale rho (inertia_of_second (central (pv ph) (pw ph) (ps ph)))).
  rewrite ph_bary by assumption. split; [reflexivity|].
  rewrite ph_bary by (try assumption; fold (pv ph'); rewrite A; exact NZ0). fold (pv ph') (pw ph'). split.
  - f_equal. rewrite A, B. generalize (pw ph) as w. generalize (pv ph) NZ0. clear. intros k NZ w. apply vec3_ext; spec_unfold; field; exact NZ.
  - split; [apply ph_bary_inertia; assumption|]. rewrite ph_bary_inertia by (try assumption; rewrite A; exact NZ0).
    f_equal. rewrite A, B, C, central_aff by exact NZ0. rewrite J_rot by exact HR.
    generalize (inertia_of_second (central (pv ph) (pw ph) (ps ph))). clear. intros J. destruct J, m. mring.
Qed.
End Moved.

Lemma mass_apex ph o : valid_ph ph -> closed (ph_faces ph) -> zPH3DVolume ph = Some (mesh_vol o (pverts ph) (ph_faces ph)).
Proof. intros H C. rewrite ph_volume by exact H. f_equal. symmetry. apply (vol_apex o _ _ C). Qed.
Lemma mass_xform ph f rho : valid_ph ph -> closed (ph_faces ph) -> rotation (fatt f) ->
  exists ph', zPH3DXform ph f = Some ph' /\ pverts ph' = map (act f) (pverts ph) /\ ph_faces ph' = ph_faces ph /\ zPH3DVolume ph' = zPH3DVolume ph /\
  (zPH3DVolume ph <> Some 0 -> exists c i, zPH3DBarycenter ph = Some c /\ zPH3DBarycenter ph' = Some (act f c) /\
     zPH3DBaryInertia ph rho = Some i /\ zPH3DBaryInertia ph' rho = Some (mmul (fatt f) (mmul i (mtr (fatt f))))).
Proof.
  intros H C [R D]. destruct (ph_xform ph f H) as (ph' & E & V & F & N). exists ph'. split; [exact E|]. split; [exact V|]. split; [exact F|].
  apply (moved_mass ph ph' (fatt f) (fpos f) H C R V F D rho).
Qed.
Lemma mass_xforminv ph f rho : valid_ph ph -> closed (ph_faces ph) -> rotation (fatt f) ->
  exists ph', zPH3DXformInv ph f = Some ph' /\ ph_faces ph' = ph_faces ph /\ map (act f) (pverts ph') = pverts ph /\ zPH3DVolume ph' = zPH3DVolume ph /\
  (zPH3DVolume ph <> Some 0 -> exists c c' i i', zPH3DBarycenter ph = Some c /\ zPH3DBarycenter ph' = Some c' /\ act f c' = c /\
     zPH3DBaryInertia ph rho = Some i /\ zPH3DBaryInertia ph' rho = Some i' /\ mmul (fatt f) (mmul i' (mtr (fatt f))) = i).
Proof.
  intros H C [R D]. destruct (ph_xforminv ph f H) as (ph' & E & V & F & N). exists ph'. split; [exact E|]. split; [exact F|]. 
  assert (V2 : pverts ph = map (act f) (pverts ph')).
  { rewrite V, map_map. rewrite (map_ext _ (fun x => x)) by (intros; apply iso_act_inv, R). symmetry. apply map_id. }
  split; [symmetry; exact V2|].
  assert (H' : valid_ph ph') by (unfold valid_ph; rewrite V, F, map_length; exact H).
  assert (C' : closed (ph_faces ph')) by (rewrite F; exact C).
  destruct (moved_mass ph' ph (fatt f) (fpos f) H' C' R V2 (eq_sym F) D rho) as (A & B). split; [symmetry; exact A|].
  intros NZ. rewrite A in NZ. destruct (B NZ) as (c & i & B1 & B2 & B3 & B4). exists (act f c), c, (mmul (fatt f) (mmul i (mtr (fatt f)))), i. auto 8.
Qed.
Lemma mass_flip ph : valid_ph ph -> exists ph' v, zPH3DFlip ph = Some ph' /\ zPH3DVolume ph = Some v /\ zPH3DVolume ph' = Some (- v) /\
  (v <> 0 -> zPH3DBarycenter ph' = zPH3DBarycenter ph) /\ (closed (ph_faces ph) -> closed (ph_faces ph')) /\ (oriented (ph_faces ph) -> oriented (ph_faces ph')).
Proof.
  intros H. destruct (ph_flip ph H) as (ph' & E & V & F & N). exists ph', (pv ph). split; [exact E|].
  assert (H' : valid_ph ph') by (unfold valid_ph; rewrite V, F; apply below_turned, H).
  split; [apply ph_volume, H|]. rewrite ph_volume by exact H'. rewrite V, F, vol_turned. split; [reflexivity|]. split.
  - intros NZ. rewrite !ph_bary; try assumption. 2: { rewrite V, F, vol_turned. unfold pv in NZ. lra. }
    f_equal. rewrite V, F, vol_turned, mom_turned. unfold pv in NZ. generalize (mom0 (pverts ph) (ph_faces ph)). intros w. apply vec3_ext; spec_unfold; field; exact NZ.
  - split; [apply closed_turned|apply oriented_turned].
Qed.
Definition flipm (a : nat) : mat3 := cols3 (flip_e a (V3 1 0 0)) (flip_e a (V3 0 1 0)) (flip_e a (V3 0 0 1)).
Lemma flipm_spec a x : flip_e a x = vadd v3zero (mvec (flipm a) x).
Proof. destruct x as [x y z]. unfold flipm. destruct a as [|[|a]]; apply vec3_ext; unfold flip_e; spec_unfold; ring. Qed.
Lemma flipm_det a : mdet (flipm a) = -1.
Proof. unfold flipm. destruct a as [|[|a]]; unfold flip_e; spec_unfold; ring. Qed.
(** linear images need no closedness: the apex stays at the origin *)
Lemma lin_vol m vs fs : indices_below (length vs) fs -> vol0 (map (fun x => vadd v3zero (mvec m x)) vs) fs = mdet m * vol0 vs fs.
Proof.
  intros HV. unfold vol0, mesh_vol. rewrite <- rsum_scale. apply rsum_ext. intros f I.
  rewrite (corners_map _ vs fs f HV I). destruct (corners vs f) as [[a b] c]. unfold cone_vol, vol6, det3v. clear. spec_unfold. field.
Qed.
Lemma mmvec_vsum {A} m (w : A -> vec3) l : vsum (fun a => mvec m (w a)) l = mvec m (vsum w l).
Proof. induction l as [|a t IH]; [cbn [vsum fold_right]; vring|]. rewrite !vsum_cons, IH. vring. Qed.
Lemma lin_mom m vs fs : indices_below (length vs) fs -> mom0 (map (fun x => vadd v3zero (mvec m x)) vs) fs = vscale (mdet m) (mvec m (mom0 vs fs)).
Proof.
  intros HV. unfold mom0, mesh_moment. rewrite <- mmvec_vsum, <- vsum_scale. apply vsum_ext. intros f I.
  rewrite (corners_map _ vs fs f HV I). destruct (corners vs f) as [[a b] c]. unfold cone_moment, cone_vol, vol6, det3v. clear. apply vec3_ext; spec_unfold; field.
Qed.
Lemma mass_mirror ph a : (a < 3)%nat -> valid_ph ph -> exists ph' v, zPH3DMirror ph a = Some ph' /\ pverts ph' = map (reflect3 a) (pverts ph) /\
  zPH3DVolume ph = Some v /\ zPH3DVolume ph' = Some v /\
  (v <> 0 -> exists c, zPH3DBarycenter ph = Some c /\ zPH3DBarycenter ph' = Some (reflect3 a c)) /\
  (oriented (ph_faces ph) -> oriented (ph_faces ph')).
Proof.
  intros L H. destruct (ph_mirror ph a H) as (ph' & E & V & F & N). exists ph', (pv ph). split; [exact E|].
  assert (V' : pverts ph' = map (fun x => vadd v3zero (mvec (flipm a) x)) (pverts ph)) by (rewrite V; apply map_ext; intros; apply flipm_spec).
  assert (H' : valid_ph ph') by (unfold valid_ph; rewrite V, F, map_length; apply below_turned, H).
  split; [rewrite V; apply map_ext; intros; apply flip_reflect, L|]. split; [apply ph_volume, H|].
  assert (VV : pv ph' = pv ph).
  { unfold pv. rewrite F, vol_turned, V', lin_vol, flipm_det by exact H. ring. }
  rewrite ph_volume by exact H'. split; [f_equal; exact VV|]. split; [|intros O; rewrite F; apply oriented_turned, O].
  intros NZ. exists (vscale (1 / pv ph) (pw ph)). rewrite !ph_bary; try assumption. 2: { fold (pv ph'). rewrite VV. exact NZ. }
  split; [reflexivity|]. f_equal. fold (pv ph'). rewrite VV, <- flip_reflect, flipm_spec by exact L.
  rewrite F, mom_turned, V', lin_mom, flipm_det by exact H. fold (pw ph). generalize (pw ph) as w. intros w. vring.
Qed.
Lemma mass_scale ph s : valid_ph ph -> exists ph' v, zPH3DScale ph s = Some ph' /\ pverts ph' = map (vscale s) (pverts ph) /\ ph_faces ph' = ph_faces ph /\
  zPH3DVolume ph = Some v /\ zPH3DVolume ph' = Some (s * s * s * v) /\
  (s <> 0 -> v <> 0 -> exists c, zPH3DBarycenter ph = Some c /\ zPH3DBarycenter ph' = Some (vscale s c)).
Proof.
  intros H. destruct (ph_scale ph s H) as (ph' & E & V & F). exists ph', (pv ph). split; [exact E|]. split; [exact V|]. split; [exact F|].
  assert (V' : pverts ph' = map (fun x => vadd v3zero (mvec (mscale s mid) x)) (pverts ph)) by (rewrite V; apply map_ext; intros; vring).
  assert (H' : valid_ph ph') by (unfold valid_ph; rewrite V, F, map_length; exact H).
  assert (D : mdet (mscale s mid) = s * s * s) by (spec_unfold; ring).
  assert (VV : pv ph' = s * s * s * pv ph).
  { unfold pv. rewrite F, V', lin_vol, D by exact H. ring. }
  split; [apply ph_volume, H|]. rewrite ph_volume by exact H'. split; [f_equal; exact VV|].
  intros S NZ. exists (vscale (1 / pv ph) (pw ph)). rewrite !ph_bary; try assumption.
  2: { fold (pv ph'). rewrite VV. repeat apply Rmult_integral_contrapositive_currified; assumption. }
  split; [reflexivity|]. f_equal. fold (pv ph'). rewrite VV, F, V', lin_mom, D by exact H. fold (pw ph). generalize (pw ph) as w. generalize (pv ph) NZ. clear - S.
  intros k NZ w. apply vec3_ext; spec_unfold; field; auto.
Qed.
Lemma J_sym S : symmetric S -> symmetric (inertia_of_second S).
Proof. unfold symmetric. intros H. destruct S as [a b c d e f g h i]. injection H as H1 H2 H3 H4 H5 H6. subst. unfold inertia_of_second. mring. Qed.
Lemma sym_outer a : symmetric (outer a a). Proof. unfold symmetric. mring. Qed.
Lemma sym_add a b : symmetric a -> symmetric b -> symmetric (madd a b).
Proof. unfold symmetric. intros A B. rewrite <- A, <- B at 2. destruct a, b. mring. Qed.
Lemma sym_scale k a : symmetric a -> symmetric (mscale k a).
Proof. unfold symmetric. intros A. rewrite <- A at 2. destruct a. mring. Qed.
Lemma sec_sym vs fs : symmetric (sec0 vs fs).
Proof.
  unfold sec0, mesh_second. induction fs as [|f t IH]; [unfold symmetric; cbn [msum fold_right]; mring|]. rewrite msum_cons. apply sym_add; [|exact IH].
  destruct (corners vs f) as [[a b] c]. cbn [cone_second]. apply sym_scale. repeat apply sym_add; apply sym_outer.
Qed.
Lemma mass_parallel ph rho : valid_ph ph -> closed (ph_faces ph) -> zPH3DVolume ph <> Some 0 ->
  exists v c i ib ph', zPH3DVolume ph = Some v /\ zPH3DBarycenter ph = Some c /\ zPH3DInertia ph rho = Some i /\ zPH3DBaryInertia ph rho = Some ib /\
    i = madd ib (mscale (rho * v) (point_inertia c)) /\ symmetric i /\ symmetric ib /\
    zPH3DXform ph (shift_by (vscale (-1) c)) = Some ph' /\ zPH3DInertia ph' rho = Some ib /\ zPH3DBarycenter ph' = Some v3zero /\
    zPH3DInertiaMass ph (rho * v) = Some i /\ zPH3DBaryInertiaMass ph (rho * v) = Some ib.
Proof.
  intros H C NZ. rewrite ph_volume in NZ by exact H. fold (pv ph) in NZ. assert (NZ0 : pv ph <> 0) by (intros E; apply NZ; rewrite E; reflexivity).
  set (c := vscale (1 / pv ph) (pw ph)).
  destruct (ph_xform ph (shift_by (vscale (-1) c)) H) as (ph' & E & V & F & N).
  assert (RI : isometry mid) by (unfold isometry; mring). assert (DI : mdet mid = 1) by (spec_unfold; ring).
  destruct (mv1 ph ph' mid (vscale (-1) c) H C RI V F DI) as (A & B & S'). pose proof (mv_valid ph ph' mid (vscale (-1) c) H V F) as H'.
  exists (pv ph), c, (mscale rho (inertia_of_second (ps ph))), (mscale rho (inertia_of_second (central (pv ph) (pw ph) (ps ph)))), ph'.
  split; [apply ph_volume, H|]. split; [apply ph_bary; assumption|]. split; [apply ph_inertia, H|]. split; [apply ph_bary_inertia; assumption|].
  assert (I0 : mscale rho (inertia_of_second (ps ph)) = madd (mscale rho (inertia_of_second (central (pv ph) (pw ph) (ps ph)))) (mscale (rho * pv ph) (point_inertia c))).
  { rewrite pi_J. unfold central. rewrite J_add, !J_scale. unfold c.
    replace (outer (vscale (1 / pv ph) (pw ph)) (vscale (1 / pv ph) (pw ph))) with (mscale (1 / pv ph * (1 / pv ph)) (outer (pw ph) (pw ph))) by mring.
    rewrite J_scale. generalize (inertia_of_second (ps ph)) as X. generalize (inertia_of_second (outer (pw ph) (pw ph))) as Y. generalize (pv ph) NZ0. clear.
    intros k NZ Y X. destruct X, Y. apply mat3_ext; spec_unfold; field; exact NZ. }
  split; [exact I0|]. split; [apply sym_scale, J_sym, sec_sym|]. split; [apply sym_scale, J_sym; unfold central; apply sym_add; [apply sec_sym|apply sym_scale, sym_outer]|].
  split; [exact E|].
  assert (W0 : vadd (vscale (pv ph) (vscale (-1) c)) (mvec mid (pw ph)) = v3zero).
  { unfold c. generalize (pw ph) as w. generalize (pv ph) NZ0. clear. intros k NZ w. apply vec3_ext; spec_unfold; field; exact NZ. }
  split.
  { rewrite ph_inertia by exact H'. fold (ps ph'). do 3 f_equal. rewrite S'.
    assert (K : sec_aff mid (vscale (-1) c) (pv ph) (pw ph) (ps ph) = central (pv ph) v3zero (sec_aff mid (vscale (-1) c) (pv ph) (pw ph) (ps ph))).
    { unfold central. generalize (sec_aff mid (vscale (-1) c) (pv ph) (pw ph) (ps ph)). intros M. destruct M. mring. }
    rewrite K, <- W0, central_aff by exact NZ0. generalize (central (pv ph) (pw ph) (ps ph)). intros M. destruct M. mring. }
  split.
  { rewrite ph_bary by (try exact H'; fold (pv ph'); rewrite A; exact NZ0). f_equal. fold (pw ph'). rewrite B, W0. vring. }
  assert (IM : zPH3DInertiaMass ph (rho * pv ph) = Some (mscale rho (inertia_of_second (ps ph)))).
  { unfold zPH3DInertiaMass. rewrite ph_volume by exact H. fold (pv ph). destruct (Reqb_reflect (pv ph) 0) as [E0|E0]; [contradiction|].
    rewrite ph_inertia by exact H. do 2 f_equal. field. exact NZ0. }
  split; [exact IM|]. unfold zPH3DBaryInertiaMass. rewrite IM, ph_bary by assumption. f_equal. fold (pv ph) (pw ph) c. rewrite cat_dop, I0.
  generalize (mscale rho (inertia_of_second (central (pv ph) (pw ph) (ps ph)))) as X. generalize (point_inertia c) as Y. clear. intros Y X. destruct X, Y. mring.
Qed.

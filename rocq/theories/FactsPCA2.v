(** Statements about principal l component analysis. *)
From Verif Require Import Base Spec SpecGeom SpecData SpecPCA ModelVec ModelMat ModelFrame ModelElem ModelData ModelPCA FactsVec FactsAlg FactsMat FactsEig FactsLine FactsObb FactsData FactsData2 FactsPCA.
From Coq Require Import Lia Lra Permutation.
Open Scope R_scope.

Lemma pca_barycentre d l : user_data d -> (exists d', zVecXDDataToAddrList d = Some (d', l)) -> l <> [] -> exists d', zVec3DDataBarycenter d = Some (d', Some (vmean l)) /\ forall c, mean (fun p => dist p c * dist p c) l = mean (fun p => dist p (vmean l) * dist p (vmean l)) l + dist (vmean l) c * dist (vmean l) c.
Proof. intros U E NE. destruct (bary_eq d l U E NE) as (d' & A & _). exists d'. split; [exact A|]. intros c. apply bary_best. exact NE. Qed.
Lemma pca_covariance d l c : user_data d -> (exists d', zVecXDDataToAddrList d = Some (d', l)) -> l <> [] -> exists d' m, zVec3DDataCov d c = Some (d', Some m) /\ symmetric m /\ (forall x y, dot x (mvec m y) = mean (fun p => dot (vsub p c) x * dot (vsub p c) y) l) /\ mtrace m = mean (fun p => dist p c * dist p c) l.
Proof. intros U E NE. destruct (cov_eq d l U E c NE) as (d' & A & _). exists d', (covm l c). split; [exact A|]. split; [apply cov_sym|]. split; [intros; apply cov_quad|apply cov_trace]. Qed.
Lemma pca_barycov d l : user_data d -> (exists d', zVecXDDataToAddrList d = Some (d', l)) -> l <> [] -> exists d1 d2 d3 b m, zVec3DDataBarycenter d = Some (d1, Some b) /\ zVec3DDataCov d b = Some (d2, Some m) /\ zVec3DDataBaryCov d = Some (d3, Some (b, m)).
Proof. intros U E NE. destruct (bary_eq d l U E NE) as (d1 & A & _). destruct (cov_eq d l U E (vmean l) NE) as (d2 & B & _). destruct (barycov_eq d l U E NE) as (d3 & C & _). exists d1, d2, d3, (vmean l), (covm l (vmean l)). auto. Qed.
Lemma principal_of l fuel c pc pa : zMat3DSymEig fuel (covm l c) = Some (pc, pa) -> principal l c pc pa zTOL.
Proof.
  intros H. destruct (pca_values fuel _ pc pa (cov_sym l c) H) as (R & V & T & O). split; [exact R|split; [|split]].
  - intros i Hi. rewrite (V i Hi), cov_quad. reflexivity.
  - rewrite T. apply cov_trace.
  - intros i j Hi Hj NEij. rewrite <- cov_quad. apply O; assumption.
Qed.
Lemma pca_components d l c : user_data d -> (exists d', zVecXDDataToAddrList d = Some (d', l)) -> l <> [] -> (exists fuel d' r, zVec3DDataPCA fuel d c = Some (d', Some r)) /\
  forall fuel d' r, zVec3DDataPCA fuel d c = Some (d', r) -> exists pc pa, r = Some (pc, pa) /\ principal l c pc pa zTOL.
Proof. intros U E NE.
  destruct (cov_eq d l U E c NE) as (d1 & A & _). split.
  - destruct (symeig_terminates_ex (covm l c) (cov_sym l c)) as (n & r & H). exists n, d1, r. unfold zVec3DDataPCA. rewrite A, H. reflexivity.
  - intros fuel d' r H. unfold zVec3DDataPCA in H. rewrite A in H. destruct (zMat3DSymEig fuel (covm l c)) as [[pc pa]|] eqn:Q; [|discriminate]. inversion H; subst. exists pc, pa. split; [reflexivity|]. eapply principal_of; exact Q.
Qed.
Lemma pca_bary_components d l : user_data d -> (exists d', zVecXDDataToAddrList d = Some (d', l)) -> l <> [] -> (exists fuel d' r, zVec3DDataBaryPCA fuel d = Some (d', Some r)) /\
  forall fuel d' r, zVec3DDataBaryPCA fuel d = Some (d', r) -> exists pc pa, r = Some (vmean l, (pc, pa)) /\ principal l (vmean l) pc pa zTOL.
Proof. intros U E NE.
  destruct (barycov_eq d l U E NE) as (d1 & A & _). split.
  - destruct (symeig_terminates_ex _ (cov_sym l (vmean l))) as (n & r & H). exists n, d1, (vmean l, r). unfold zVec3DDataBaryPCA. rewrite A, H. reflexivity.
  - intros fuel d' r H. unfold zVec3DDataBaryPCA in H. rewrite A in H. destruct (zMat3DSymEig fuel (covm l (vmean l))) as [[pc pa]|] eqn:Q; [|discriminate]. inversion H; subst. exists pc, pa. split; [reflexivity|]. eapply principal_of; exact Q.
Qed.
Lemma pca_frame d l : user_data d -> (exists d', zVecXDDataToAddrList d = Some (d', l)) -> l <> [] -> (exists fuel d' f, zVec3DDataPCAFrame fuel d = Some (d', Some f)) /\
  forall fuel d' r, zVec3DDataPCAFrame fuel d = Some (d', r) -> exists f pc, r = Some f /\ fpos f = vmean l /\ principal l (vmean l) pc (fatt f) zTOL.
Proof. intros U E NE.
  destruct (pca_bary_components d l U E NE) as [(n & d1 & r & H) K]. split.
  - exists n, d1. unfold zVec3DDataPCAFrame. rewrite H. destruct r as (c & pc & pa). eexists. reflexivity.
  - intros fuel d' q Hq. unfold zVec3DDataPCAFrame in Hq. destruct (zVec3DDataBaryPCA fuel d) as [[d2 r2]|] eqn:Q; [|discriminate]. destruct (K _ _ _ Q) as (pc & pa & -> & P). inversion Hq; subst. exists (F3 (vmean l) pa), pc. split; [|split; [reflexivity|exact P]]. do 2 f_equal.
    destruct P as ((Ho & Hd) & _). assert (X : cross (col0 pa) (col1 pa) = col2 pa).
    { apply rotation_cross; split; assumption. }
    change (of_b (bx pa) (by_ pa) (zVec3DOuterProd (bx pa) (by_ pa)) = pa). change (bx pa) with (col0 pa). change (by_ pa) with (col1 pa). rewrite zcross_spec, X. destruct pa as [a1 a2 a3 a4 a5 a6 a7 a8 a9]. reflexivity.
Qed.
Lemma min_spread l fuel c pc pa : zMat3DSymEig fuel (covm l c) = Some (pc, pa) -> let v := zMat3DVec pa (zMat3DEigMinID pc) in norm v = 1 /\ forall x, norm x = 1 -> spread l c v <= spread l c x + 4 * zTOL.
Proof.
  intros H v. assert (M : zMat3DSymEigMin fuel (covm l c) = Some v) by (unfold zMat3DSymEigMin; rewrite H; reflexivity). destruct (symeigmin_ok fuel _ v (cov_sym l c) M) as (N & lam & Rs & Lo). split; [exact N|]. intros x Nx.
  unfold spread. rewrite <- !cov_quad. specialize (Lo x). assert (XX : dot x x = 1) by (rewrite <- norm_sqr, Nx; ring). assert (VV : dot v v = 1) by (rewrite <- norm_sqr, N; ring). rewrite XX in Lo.
  assert (CS : dot v (vsub (mvec (covm l c) v) (vscale lam v)) <= norm v * norm (vsub (mvec (covm l c) v) (vscale lam v))) by apply dot_le_norm.
  assert (D : dot v (vsub (mvec (covm l c) v) (vscale lam v)) = dot v (mvec (covm l c) v) - lam * dot v v) by (generalize (mvec (covm l c) v); intros w; spec_unfold; ring). rewrite D, N, VV in CS. lra.
Qed.
Lemma pca_normal d l c : user_data d -> (exists d', zVecXDDataToAddrList d = Some (d', l)) -> l <> [] -> (exists fuel d' v, zVec3DDataMeanNormal fuel d c = Some (d', Some v)) /\
  forall fuel d' r, zVec3DDataMeanNormal fuel d c = Some (d', r) -> exists v, r = Some v /\ norm v = 1 /\ forall x, norm x = 1 -> spread l c v <= spread l c x + 4 * zTOL.
Proof. intros U E NE.
  destruct (cov_eq d l U E c NE) as (d1 & A & _). split.
  - destruct (symeig_terminates_ex (covm l c) (cov_sym l c)) as (n & [pc pa] & H). exists n, d1. unfold zVec3DDataMeanNormal, zVec3DDataPCA. rewrite A, H. eexists. reflexivity.
  - intros fuel d' r H. unfold zVec3DDataMeanNormal, zVec3DDataPCA in H. rewrite A in H. destruct (zMat3DSymEig fuel (covm l c)) as [[pc pa]|] eqn:Q; [|discriminate]. inversion H; subst. eexists. split; [reflexivity|]. eapply min_spread; exact Q.
Qed.
Lemma pca_plane d l : user_data d -> (exists d', zVecXDDataToAddrList d = Some (d', l)) -> l <> [] -> (exists fuel d' r, zVec3DDataMeanPlane fuel d = Some (d', Some r)) /\
  forall fuel d' r, zVec3DDataMeanPlane fuel d = Some (d', r) -> exists pl, r = Some (vmean l, Some pl) /\ porg pl = vmean l /\ norm (pnorm pl) = 1 /\ forall c x, norm x = 1 -> spread l (vmean l) (pnorm pl) <= spread l c x + 4 * zTOL.
Proof. intros U E NE.
  destruct (barycov_eq d l U E NE) as (d1 & A & _). split.
  - destruct (symeig_terminates_ex _ (cov_sym l (vmean l))) as (n & [pc pa] & H). exists n, d1. unfold zVec3DDataMeanPlane, zVec3DDataBaryPCA. rewrite A, H. eexists. reflexivity.
  - intros fuel d' r H. unfold zVec3DDataMeanPlane, zVec3DDataBaryPCA in H. rewrite A in H. destruct (zMat3DSymEig fuel (covm l (vmean l))) as [[pc pa]|] eqn:Q; [|discriminate]. destruct (min_spread l fuel _ pc pa Q) as (N & S). set (v := zMat3DVec pa (zMat3DEigMinID pc)) in *.
    destruct (plane_create (vmean l) v) as (pl & P1 & P2 & P3 & P4). { apply zVec3DIsTiny_false, unit_not_tiny. rewrite <- norm_sqr, N. ring. }
    rewrite P1 in H. inversion H; subst. exists pl. split; [reflexivity|]. split; [exact P2|]. split; [exact P3|]. intros c x Nx. rewrite N in P4. assert (EV : pnorm pl = v) by (rewrite <- P4; apply vec3_ext; unfold vscale; cbn [vx vy vz]; ring). rewrite EV, (spread_shift l c x NE). specialize (S x Nx). pose proof (Rle_0_sqr (dot (vsub (vmean l) c) x)). unfold Rsqr in *. lra.
Qed.
Lemma pca_order d l d0 l0 c : user_data d -> (exists d', zVecXDDataToAddrList d = Some (d', l)) -> user_data d0 -> (exists d', zVecXDDataToAddrList d0 = Some (d', l0)) -> l <> [] -> Permutation l l0 ->
  exists d1 d2 d3 d4 b m, zVec3DDataBarycenter d = Some (d1, Some b) /\ zVec3DDataBarycenter d0 = Some (d2, Some b) /\ zVec3DDataCov d c = Some (d3, Some m) /\ zVec3DDataCov d0 c = Some (d4, Some m).
Proof.
  intros U E U0 E0 NE P. assert (NE0 : l0 <> []) by (intros ->; apply Permutation_sym, Permutation_nil in P; congruence).
  destruct (bary_eq d l U E NE) as (d1 & A & _). destruct (bary_eq d0 l0 U0 E0 NE0) as (d2 & B & _). destruct (cov_eq d l U E c NE) as (d3 & C & _). destruct (cov_eq d0 l0 U0 E0 c NE0) as (d4 & D & _).
  exists d1, d2, d3, d4, (vmean l), (covm l c). assert (M : vmean l0 = vmean l) by (unfold vmean; rewrite !(mean_perm _ _ _ P); reflexivity). assert (K : covm l0 c = covm l c) by (unfold covm; cbv zeta; f_equal; symmetry; apply mean_perm; exact P). rewrite <- M at 2. rewrite <- K at 2. auto.
Qed.

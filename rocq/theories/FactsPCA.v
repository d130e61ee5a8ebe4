(** Proofs about principal component analysis. *)
From Verif Require Import Base Spec SpecGeom SpecData SpecPCA ModelVec ModelMat ModelFrame ModelElem ModelData ModelPCA FactsVec FactsAlg FactsMat FactsEig FactsLine FactsData FactsData2.
From Coq Require Import Lia Lra Permutation.
Open Scope R_scope.

Lemma rsum_perm f l l' : Permutation l l' -> rsum f l = rsum f l'.
Proof. induction 1; cbn [rsum fold_right]; unfold rsum in *; lra. Qed.
Lemma mean_perm f l l' : Permutation l l' -> mean f l = mean f l'.
Proof. intros P. unfold mean. rewrite (rsum_perm f _ _ P), (Permutation_length P). reflexivity. Qed.
Definition covm (l : list vec3) (c : vec3) : mat3 :=
  let d := fun f g => mean (fun p => f (vsub p c) * g (vsub p c)) l in
  M3 (d vx vx) (d vy vx) (d vz vx) (d vx vy) (d vy vy) (d vz vy) (d vx vz) (d vy vz) (d vz vz).
Lemma len_pos {A} (l : list A) : l <> [] -> 0 < INR (length l).
Proof. destruct l as [|a l]; [congruence|]. intros _. apply lt_0_INR. cbn. lia. Qed.
Lemma sum_fold l : forall s, fold_left zVec3DAdd l s = V3 (vx s + rsum vx l) (vy s + rsum vy l) (vz s + rsum vz l).
Proof.
  induction l as [|a l IH]; intros s; [cbn; apply vec3_ext; cbn [vx vy vz]; lra|]. cbn [fold_left]. rewrite IH. unfold zVec3DAdd. cbn [vx vy vz rsum fold_right]. apply vec3_ext; cbn [vx vy vz]; unfold rsum; ring.
Qed.
Lemma mat3_ext2 a b : cxx a = cxx b -> cxy a = cxy b -> cxz a = cxz b -> cyx a = cyx b -> cyy a = cyy b -> cyz a = cyz b -> czx a = czx b -> czy a = czy b -> czz a = czz b -> a = b.
Proof. destruct a as [a1 a2 a3 a4 a5 a6 a7 a8 a9], b as [b1 b2 b3 b4 b5 b6 b7 b8 b9]. cbn [cxx cxy cxz cyx cyy cyz czx czy czz]. intros; subst; reflexivity. Qed.
Lemma cov_fold c l : forall m, fold_left (fun cov v => zMat3DAddDyad cov (zVec3DSub v c) (zVec3DSub v c)) l m =
  let d := fun f g => rsum (fun p => f (vsub p c) * g (vsub p c)) l in
  M3 (cxx m + d vx vx) (cxy m + d vy vx) (cxz m + d vz vx) (cyx m + d vx vy) (cyy m + d vy vy) (cyz m + d vz vy) (czx m + d vx vz) (czy m + d vy vz) (czz m + d vz vz).
Proof.
  induction l as [|a l IH]; intros m; [cbn; apply mat3_ext2; cbn [cxx cxy cxz cyx cyy cyz czx czy czz]; lra|]. cbn [fold_left]. rewrite IH. cbv zeta.
  apply mat3_ext2; unfold zMat3DAddDyad, zVec3DCat, zVec3DSub, of_b, bx, by_, bz, vsub, rsum; cbn [cxx cxy cxz cyx cyy cyz czx czy czz vx vy vz fold_right]; ring.
Qed.
Lemma rsum_shift l (f g : vec3 -> R) (a b : R) : rsum (fun p => (f p - a) * (g p - b)) l = rsum (fun p => f p * g p) l - b * rsum f l - a * rsum g l + INR (length l) * (a * b).
Proof.
  induction l as [|p l0 IH]; [cbn; ring|]. change (length (p :: l0)) with (S (length l0)). rewrite S_INR. unfold rsum in *. cbn [fold_right]. rewrite IH; ring.
Qed.
Lemma cov_entries l : l <> [] -> covm l (vmean l) = let k := 1 / INR (length l) in let b := vmean l in let d := fun f g => rsum (fun p => f (vsub p (V3 0 0 0)) * g (vsub p (V3 0 0 0))) l in
  M3 ((d vx vx - rsum vx l * vx b) * k) ((d vy vx - rsum vy l * vx b) * k) ((d vz vx - rsum vz l * vx b) * k) ((d vx vy - rsum vx l * vy b) * k) ((d vy vy - rsum vy l * vy b) * k) ((d vz vy - rsum vz l * vy b) * k) ((d vx vz - rsum vx l * vz b) * k) ((d vy vz - rsum vy l * vz b) * k) ((d vz vz - rsum vz l * vz b) * k).
Proof.
  intros NE. pose proof (len_pos l NE) as LP. cbv zeta.
  assert (G : forall f g : vec3 -> R, (forall p q, f (vsub p q) = f p - f q) -> (forall p q, g (vsub p q) = g p - g q) -> f (V3 0 0 0) = 0 -> g (V3 0 0 0) = 0 -> f (vmean l) = mean f l -> g (vmean l) = mean g l -> mean (fun p => f (vsub p (vmean l)) * g (vsub p (vmean l))) l = (rsum (fun p => f (vsub p (V3 0 0 0)) * g (vsub p (V3 0 0 0))) l - rsum f l * g (vmean l)) * (1 / INR (length l))).
  { intros f g Lf Lg Zf Zg Mf Mg. assert (X : forall c, rsum (fun p => f (vsub p c) * g (vsub p c)) l = rsum (fun p => (f p - f c) * (g p - g c)) l) by (intros c; clear -Lf Lg; induction l as [|p l0 IH]; [reflexivity|]; unfold rsum in *; cbn [fold_right]; rewrite IH, Lf, Lg; reflexivity).
    unfold mean at 1. rewrite !X, !rsum_shift, Zf, Zg, Mf, Mg. unfold mean. field. lra. }
  unfold covm. cbv zeta. rewrite !G; try reflexivity; intros p q; reflexivity.
Qed.
Section One.
Variables (d : data vec3) (l : list vec3).
Hypothesis (U : user_data d) (E : exists d', zVecXDDataToAddrList d = Some (d', l)).
Lemma bary_eq : l <> [] -> exists d', zVec3DDataBarycenter d = Some (d', Some (vmean l)) /\ wf d' /\ contents d' = l.
Proof.
  intros NE. destruct (data_of d l U E) as [W C]. pose proof (len_pos l NE) as LP. unfold zVec3DDataBarycenter. rewrite empty_spec, C by exact W. destruct l as [|a l0] eqn:El; [congruence|]. rewrite <- El in *.
  destruct (while_all (fun c v => inl (zVec3DAdd c v)) d (V3 0 0 0) W) as (d' & R & W' & C' & _). exists d'. split; [|split; [exact W'|rewrite C'; exact C]]. rewrite R, (fold_brk_fold zVec3DAdd), sum_fold, C. rewrite size_spec, C', C by exact W'. unfold zVec3DDiv. destruct (Reqb_reflect (INR (length l)) 0) as [Z|_]; [lra|].
  assert (EC : zVec3DMul (V3 (vx (V3 0 0 0) + rsum vx l) (vy (V3 0 0 0) + rsum vy l) (vz (V3 0 0 0) + rsum vz l)) (1 / INR (length l)) = vmean l) by (unfold vmean, mean, zVec3DMul; cbn [vx vy vz]; apply vec3_ext; cbn [vx vy vz]; unfold Rdiv; ring).
  rewrite EC. reflexivity.
Qed.
Lemma cov_eq c : l <> [] -> exists d', zVec3DDataCov d c = Some (d', Some (covm l c)) /\ wf d' /\ contents d' = l.
Proof.
  intros NE. destruct (data_of d l U E) as [W C]. pose proof (len_pos l NE) as LP. unfold zVec3DDataCov. rewrite empty_spec, C by exact W. destruct l as [|a l0] eqn:El; [congruence|]. rewrite <- El in *.
  destruct (while_all (fun cov v => inl (zMat3DAddDyad cov (zVec3DSub v c) (zVec3DSub v c))) d ZMAT3DZERO W) as (d' & R & W' & C' & _). exists d'. split; [|split; [exact W'|rewrite C'; exact C]]. cbv zeta. rewrite R, (fold_brk_fold (fun cov v => zMat3DAddDyad cov (zVec3DSub v c) (zVec3DSub v c))), cov_fold, C. rewrite size_spec, C', C by exact W'. unfold zMat3DDiv. destruct (Reqb_reflect (INR (length l)) 0) as [Z|_]; [lra|].
  match goal with |- Some (_, Some ?a) = Some (_, Some ?b) => assert (EC : a = b); [|rewrite EC; reflexivity] end. unfold covm, mean. cbv zeta. apply mat3_ext2; unfold zMat3DMul, zVec3DMul, ZMAT3DZERO, of_b, bx, by_, bz, Rdiv; cbn [cxx cxy cxz cyx cyy cyz czx czy czz vx vy vz]; ring.
Qed.
Lemma barycov_eq : l <> [] -> exists d', zVec3DDataBaryCov d = Some (d', Some (vmean l, covm l (vmean l))) /\ wf d' /\ contents d' = l.
Proof.
  intros NE. destruct (data_of d l U E) as [W C]. pose proof (len_pos l NE) as LP. unfold zVec3DDataBaryCov. rewrite empty_spec, C by exact W. destruct l as [|a l0] eqn:El; [congruence|]. rewrite <- El in *.
  destruct (while_all (fun s v => inl (zVec3DAdd (fst s) v, zMat3DAddDyad (snd s) v v)) d (V3 0 0 0, ZMAT3DZERO) W) as (d' & R & W' & C' & _). exists d'. split; [|split; [exact W'|rewrite C'; exact C]]. rewrite R, (fold_brk_fold (fun s v => (zVec3DAdd (fst s) v, zMat3DAddDyad (snd s) v v))).
  assert (SP : forall m s t, fold_left (fun s v => (zVec3DAdd (fst s) v, zMat3DAddDyad (snd s) v v)) m (s, t) = (fold_left zVec3DAdd m s, fold_left (fun cov v => zMat3DAddDyad cov (zVec3DSub v (V3 0 0 0)) (zVec3DSub v (V3 0 0 0))) m t)).
  { assert (Z : forall v, zVec3DSub v (V3 0 0 0) = v) by (intros v; unfold zVec3DSub; cbn [vx vy vz]; apply vec3_ext; cbn [vx vy vz]; ring). induction m as [|x m IH]; intros s t; [reflexivity|]. cbn [fold_left fst snd]. rewrite IH, !Z. reflexivity. }
  rewrite SP, sum_fold, cov_fold, C. rewrite size_spec, C', C by exact W'. unfold zVec3DDiv. destruct (Reqb_reflect (INR (length l)) 0) as [Z|_]; [lra|]. unfold zMat3DDiv. destruct (Reqb_reflect (INR (length l)) 0) as [Z|_]; [lra|].
  assert (EC : zVec3DMul (V3 (vx (V3 0 0 0) + rsum vx l) (vy (V3 0 0 0) + rsum vy l) (vz (V3 0 0 0) + rsum vz l)) (1 / INR (length l)) = vmean l) by (unfold vmean, mean, zVec3DMul; cbn [vx vy vz]; apply vec3_ext; cbn [vx vy vz]; unfold Rdiv; ring).
  rewrite EC. match goal with |- Some (_, Some (_, ?a)) = Some (_, Some (_, ?b)) => assert (EM : a = b); [|rewrite EM; reflexivity] end.
  clear EC. rewrite (cov_entries l NE). cbv zeta. set (b := vmean l). generalize (rsum vx l) (rsum vy l) (rsum vz l) (1 / INR (length l)). intros sx sy sz k. clearbody b.
  repeat match goal with |- context [rsum ?f l] => generalize (rsum f l); intros ? end. clear. apply mat3_ext2; lazy beta iota zeta delta [zMat3DMul zMat3DSubDyad zVec3DCat zVec3DMul ZMAT3DZERO of_b bx by_ bz cxx cxy cxz cyx cyy cyz czx czy czz vx vy vz]; ring.
Qed.
End One.
Lemma pca_empty d : user_data d -> (exists d', zVecXDDataToAddrList d = Some (d', [])) -> exists d', zVec3DDataBarycenter d = Some (d', None) /\ (forall c, exists d', zVec3DDataCov d c = Some (d', None)) /\ (exists d', zVec3DDataBaryCov d = Some (d', None)).
Proof.
  intros U E. destruct (data_of d [] U E) as [W C]. exists d. unfold zVec3DDataBarycenter, zVec3DDataCov, zVec3DDataBaryCov. rewrite empty_spec, C by exact W. split; [reflexivity|]. split; [intros c|]; exists d; reflexivity.
Qed.
(** ** what the covariance means *)
Lemma cov_sym l c : symmetric (covm l c).
Proof.
  unfold symmetric, covm. cbv zeta. assert (G : forall f g, mean (fun p => f (vsub p c) * g (vsub p c)) l = mean (fun p => g (vsub p c) * f (vsub p c)) l) by (intros f g; unfold mean; f_equal; induction l as [|p l0 IH]; [reflexivity|]; unfold rsum in *; cbn [fold_right]; rewrite IH; ring).
  unfold mtr, cols3, row0, row1, row2. cbn [cxx cxy cxz cyx cyy cyz czx czy czz vx vy vz]. apply mat3_ext2; cbn [cxx cxy cxz cyx cyy cyz czx czy czz]; auto.
Qed.
Lemma cov_quad l c x y : dot x (mvec (covm l c) y) = mean (fun p => dot (vsub p c) x * dot (vsub p c) y) l.
Proof.
  unfold covm, mean. cbv zeta. unfold mvec, dot, row0, row1, row2. cbn [cxx cxy cxz cyx cyy cyz czx czy czz vx vy vz]. unfold Rdiv. set (k := / INR (length l)). clearbody k.
  induction l as [|p l0 IH]; [cbn; ring|]. unfold rsum in *. cbn [fold_right]. rewrite !Rmult_plus_distr_r. rewrite <- IH. clear IH. set (q := vsub p c). unfold vsub. cbn [vx vy vz]. ring.
Qed.
Lemma cov_trace l c : mtrace (covm l c) = mean (fun p => dist p c * dist p c) l.
Proof.
  assert (Q : forall p, dist p c * dist p c = vx (vsub p c) * vx (vsub p c) + vy (vsub p c) * vy (vsub p c) + vz (vsub p c) * vz (vsub p c)) by (intros p; unfold dist; rewrite norm_sqr; reflexivity).
  unfold mtrace, covm, mean. cbv zeta. cbn [cxx cyy czz]. unfold Rdiv. set (k := / INR (length l)). clearbody k. induction l as [|p l0 IH]; [cbn; ring|]. unfold rsum in *. cbn [fold_right]. rewrite !Rmult_plus_distr_r. rewrite <- IH, Q. clear. ring.
Qed.
Lemma bary_best l c : l <> [] -> mean (fun p => dist p c * dist p c) l = mean (fun p => dist p (vmean l) * dist p (vmean l)) l + dist (vmean l) c * dist (vmean l) c.
Proof.
  intros NE. pose proof (len_pos l NE) as LP. assert (Q : forall a b, dist a b * dist a b = (vx a - vx b) * (vx a - vx b) + (vy a - vy b) * (vy a - vy b) + (vz a - vz b) * (vz a - vz b)) by (intros a b; unfold dist; rewrite norm_sqr; reflexivity).
  assert (S3 : forall c, rsum (fun p => dist p c * dist p c) l = rsum (fun p => (vx p - vx c) * (vx p - vx c)) l + rsum (fun p => (vy p - vy c) * (vy p - vy c)) l + rsum (fun p => (vz p - vz c) * (vz p - vz c)) l).
  { intros c0. clear -Q. induction l as [|p l0 IH]; [cbn; ring|]. unfold rsum in *. cbn [fold_right]. rewrite IH, Q. ring. }
  unfold mean. rewrite !S3, !(rsum_shift l), (Q (vmean l) c). unfold vmean, mean. cbn [vx vy vz]. field. lra.
Qed.
Lemma spread_shift l c x : l <> [] -> spread l c x = spread l (vmean l) x + dot (vsub (vmean l) c) x * dot (vsub (vmean l) c) x.
Proof.
  intros NE. pose proof (len_pos l NE) as LP. unfold spread, mean.
  assert (S : forall c, rsum (fun p => dot (vsub p c) x * dot (vsub p c) x) l = rsum (fun p => dot p x * dot p x) l - 2 * dot c x * rsum (fun p => dot p x) l + INR (length l) * (dot c x * dot c x)).
  { intros c0. assert (X : rsum (fun p => dot (vsub p c0) x * dot (vsub p c0) x) l = rsum (fun p => (dot p x - dot c0 x) * (dot p x - dot c0 x)) l).
    { clear. induction l as [|p l0 IH]; [reflexivity|]. unfold rsum in *. cbn [fold_right]. rewrite IH. f_equal. unfold dot, vsub. cbn [vx vy vz]. ring. } rewrite X, rsum_shift. ring. }
  assert (M : dot (vmean l) x = rsum (fun p => dot p x) l / INR (length l)).
  { unfold vmean, mean, dot. cbn [vx vy vz]. unfold Rdiv. generalize (/ INR (length l)). intros k. clear. induction l as [|p l0 IH]; [cbn; ring|]. unfold rsum in *. cbn [fold_right]. rewrite !Rmult_plus_distr_r in *. rewrite <- IH. ring. }
  assert (D : dot (vsub (vmean l) c) x = dot (vmean l) x - dot c x) by (unfold dot, vsub; cbn [vx vy vz]; ring). rewrite !S, D, M. field. lra.
Qed.
(** ** principal components *)
Lemma rot_col_unit b : rotation b -> norm (col0 b) = 1 /\ norm (col1 b) = 1 /\ norm (col2 b) = 1.
Proof.
  intros [Ho _]. assert (U : forall v, dot v v = 1 -> norm v = 1) by (intros v H; unfold norm; rewrite H; apply sqrt_1).
  pose proof (f_equal cxx Ho) as A. pose proof (f_equal cyy Ho) as B. pose proof (f_equal czz Ho) as C. assert (K : dot (col0 b) (col0 b) = 1 /\ dot (col1 b) (col1 b) = 1 /\ dot (col2 b) (col2 b) = 1) by (clear - A B C; spec_unfold; cbn in *; repeat split; lra). destruct K as (a & b0 & c). auto.
Qed.
Lemma diag_entry b m d i : rotation b -> mmul m b = mmul b d -> (i < 3)%nat -> dot (axis b i) (mvec m (axis b i)) = mnth d i i.
Proof.
  intros [Ho _] Hm Hi. assert (X : mmul (mtr b) (mmul m b) = d). { rewrite Hm, mmul_assoc, Ho, mmul_id_l. reflexivity. }
  rewrite <- X. destruct i as [|[|[|i]]]; try lia; cbn [axis mnth vnth]; spec_unfold; ring.
Qed.
Lemma pca_values fuel m val base : symmetric m -> zMat3DSymEig fuel m = Some (val, base) -> rotation base /\ (forall i, (i < 3)%nat -> vnth val i = dot (axis base i) (mvec m (axis base i))) /\ vx val + vy val + vz val = mtrace m /\
  (forall i j, (i < 3)%nat -> (j < 3)%nat -> i <> j -> Rabs (dot (axis base i) (mvec m (axis base j))) < zTOL).
Proof.
  intros S E. destruct (symeig_spec fuel m val base S E) as (R & d & Sd & Hm & Hm2 & Hv & Of). split; [exact R|split; [|split]].
  - intros i Hi. rewrite (diag_entry base m d i R Hm Hi), Hv. destruct i as [|[|[|i]]]; try lia; reflexivity.
  - rewrite Hv. cbn [vx vy vz]. change (mtrace d = mtrace m). destruct R as [Ho _]. assert (X : mmul (mtr base) (mmul m base) = d) by (rewrite Hm, mmul_assoc, Ho, mmul_id_l; reflexivity).
    rewrite <- X. assert (T : forall a b, mtrace (mmul a b) = mtrace (mmul b a)) by (intros; spec_unfold; ring). rewrite T, <- mmul_assoc. replace (mmul base (mtr base)) with mid; [rewrite mmul_id_r; reflexivity|]. symmetry. apply left_inv_right. exact Ho.
  - assert (X : mmul (mtr base) (mmul m base) = d) by (destruct R as [Ho _]; rewrite Hm, mmul_assoc, Ho, mmul_id_l; reflexivity). assert (Q : forall i j, (i < 3)%nat -> (j < 3)%nat -> dot (axis base i) (mvec m (axis base j)) = mnth d i j).
    { intros i j Hi Hj. rewrite <- X. destruct i as [|[|[|i]]]; try lia; destruct j as [|[|[|j]]]; try lia; cbn [axis mnth vnth]; spec_unfold; ring. }
    assert (SY : cyx d = cxy d /\ czx d = cxz d /\ czy d = cyz d). { unfold symmetric in Sd. pose proof (f_equal cxy Sd) as A. pose proof (f_equal cxz Sd) as B. pose proof (f_equal cyz Sd) as C. unfold mtr, cols3, row0, row1, row2 in A, B, C. cbn [cxx cxy cxz cyx cyy cyz czx czy czz vx vy vz] in A, B, C. auto. }
    destruct SY as (Y1 & Y2 & Y3). destruct Of as (O1 & O2 & O3). intros i j Hi Hj NE. rewrite Q by assumption. destruct i as [|[|[|i]]]; try lia; destruct j as [|[|[|j]]]; try lia; try congruence; cbn [mnth vnth col0 col1 col2 vx vy vz]; rewrite ?Y1, ?Y2, ?Y3 in *; assumption.
Qed.

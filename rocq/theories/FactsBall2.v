(** Enclosing balls: what the direct computation on few points gives *)
From Verif Require Import Base Spec SpecGeom SpecBall ModelVec ModelElem ModelShape ModelBall FactsVec FactsAlg FactsElem FactsCentre FactsRound FactsBall.
From Coq Require Import List Lia Lra.
Import ListNotations.
Open Scope R_scope.

Lemma dist_sqr a b : dist a b * dist a b = dot (vsub a b) (vsub a b).
Proof. apply norm_sqr. Qed.
Lemma mid_vec a b : zVec3DMid a b = vscale (1 / 2) (vadd a b).
Proof. unfold zVec3DMid. replace 0.5 with (1 / 2) by lra. apply vec3_ext; spec_unfold; field. Qed.
(** a point outside the ball on a diameter sees it under an acute angle *)
Lemma outside_acute a b p : dist (zVec3DMid a b) a < dist (zVec3DMid a b) p -> 0 < dot (vsub a p) (vsub b p).
Proof.
  intros H. pose proof (norm_nonneg (vsub (zVec3DMid a b) a)) as N. fold (dist (zVec3DMid a b) a) in N.
  assert (S : dist (zVec3DMid a b) a * dist (zVec3DMid a b) a < dist (zVec3DMid a b) p * dist (zVec3DMid a b) p) by nra.
  rewrite !dist_sqr, mid_vec in S. revert S. destruct a as [a1 a2 a3], b as [b1 b2 b3], p as [p1 p2 p3]. spec_unfold. intros S. nra.
Qed.
Lemma acute_normal a b c : 0 < dot (vsub b a) (vsub c a) -> 0 < dot (vsub a b) (vsub c b) -> 0 < dot (vsub a c) (vsub b c) -> tri_normal a b c <> v3zero.
Proof.
  intros A B C Z. set (u := vsub b a) in *. set (v := vsub c a) in *.
  assert (E1 : dot (vsub a b) (vsub c b) = dot u u - dot u v) by (unfold u, v; clear; spec_unfold; ring).
  assert (E2 : dot (vsub a c) (vsub b c) = dot v v - dot u v) by (unfold u, v; clear; spec_unfold; ring).
  assert (G : dot (tri_normal a b c) (tri_normal a b c) = dot u u * dot v v - dot u v * dot u v) by (unfold tri_normal, u, v; clear; spec_unfold; ring).
  rewrite Z in G. replace (dot v3zero v3zero) with 0 in G by (spec_unfold; ring). nra.
Qed.
(** the circumscribed ball of an acute triangle is the least one *)
Lemma acute_least a b c s : 0 <= dot (vsub b a) (vsub c a) -> 0 <= dot (vsub a b) (vsub c b) -> 0 <= dot (vsub a c) (vsub b c) -> tri_normal a b c <> v3zero ->
  zSphere3DFrom3 a b c = Some s -> least_ball (srad s) [a; b; c].
Proof.
  intros A B C N E x r H. destruct (sphere_from3 a b c N) as (s' & E' & Da & Db & Dc & _). rewrite E in E'. injection E' as <-.
  assert (R0 : 0 <= r) by (eapply Rle_trans; [apply norm_nonneg|apply (H a); left; reflexivity]).
  assert (Ha : dist x a * dist x a <= r * r) by (pose proof (norm_nonneg (vsub x a)) as T; fold (dist x a) in T; pose proof (H a (or_introl eq_refl)) as K; unfold ball in K; nra).
  assert (Hb : dist x b * dist x b <= r * r) by (pose proof (norm_nonneg (vsub x b)) as T; fold (dist x b) in T; pose proof (H b (or_intror (or_introl eq_refl))) as K; unfold ball in K; nra).
  assert (Hc : dist x c * dist x c <= r * r) by (pose proof (norm_nonneg (vsub x c)) as T; fold (dist x c) in T; pose proof (H c (or_intror (or_intror (or_introl eq_refl)))) as K; unfold ball in K; nra).
  assert (S0 : 0 <= srad s) by (rewrite <- Da; apply norm_nonneg).
  set (w0 := dot (vsub c b) (vsub c b) * (2 * dot (vsub b a) (vsub c a))). set (w1 := dot (vsub a c) (vsub a c) * (2 * dot (vsub a b) (vsub c b))).
  set (w2 := dot (vsub b a) (vsub b a) * (2 * dot (vsub a c) (vsub b c))).
  assert (W0 : 0 <= w0) by (unfold w0; pose proof (dot_self_nonneg (vsub c b)); nra).
  assert (W1 : 0 <= w1) by (unfold w1; pose proof (dot_self_nonneg (vsub a c)); nra).
  assert (W2 : 0 <= w2) by (unfold w2; pose proof (dot_self_nonneg (vsub b a)); nra).
  assert (W : 0 < w0 + w1 + w2).
  { pose proof (gram_pos _ _ _ N) as G. unfold gramdet in G. replace (w0 + w1 + w2) with (4 * (dot (vsub b a) (vsub b a) * dot (vsub c a) (vsub c a) - dot (vsub b a) (vsub c a) * dot (vsub b a) (vsub c a))); [lra|].
    unfold w0, w1, w2. clear. spec_unfold. ring. }
  assert (Cn : vscale (w0 + w1 + w2) (scen s) = vadd (vadd (vscale w0 a) (vscale w1 b)) (vscale w2 c)).
  { unfold zSphere3DFrom3, triCircumcenter in E. cbv zeta in E. unfold triWeightedCenter in E. cbv zeta in E.
    replace (zVec3DSqrDist c b * (zVec3DSqrDist a c + zVec3DSqrDist b a - zVec3DSqrDist c b)) with w0 in E by (unfold w0; zvg; clear; spec_unfold; ring).
    replace (zVec3DSqrDist a c * (zVec3DSqrDist b a + zVec3DSqrDist c b - zVec3DSqrDist a c)) with w1 in E by (unfold w1; zvg; clear; spec_unfold; ring).
    replace (zVec3DSqrDist b a * (zVec3DSqrDist c b + zVec3DSqrDist a c - zVec3DSqrDist b a)) with w2 in E by (unfold w2; zvg; clear; spec_unfold; ring).
    destruct (Reqb_reflect (w0 + w1 + w2) 0); [lra|]. injection E as <-. unfold zSphere3DCreate; cbn [scen]. clearbody w0 w1 w2. apply vec3_ext; spec_unfold; pcbn; field; assumption. }
  assert (I : w0 * (dist x a * dist x a) + w1 * (dist x b * dist x b) + w2 * (dist x c * dist x c) = (w0 + w1 + w2) * (srad s * srad s + dot (vsub x (scen s)) (vsub x (scen s)))).
  { assert (J : forall q, dist x q * dist x q = srad s * srad s * 0 + dist (scen s) q * dist (scen s) q + 2 * dot (vsub x (scen s)) (vsub (scen s) q) + dot (vsub x (scen s)) (vsub x (scen s))).
    { intros q. rewrite !dist_sqr. clear. spec_unfold. ring. }
    rewrite (J a), (J b), (J c), Da, Db, Dc.
    assert (L : w0 * dot (vsub x (scen s)) (vsub (scen s) a) + w1 * dot (vsub x (scen s)) (vsub (scen s) b) + w2 * dot (vsub x (scen s)) (vsub (scen s) c) =
      dot (vsub x (scen s)) (vsub (vscale (w0 + w1 + w2) (scen s)) (vadd (vadd (vscale w0 a) (vscale w1 b)) (vscale w2 c)))).
    { clearbody w0 w1 w2. clear. spec_unfold. ring. }
    rewrite Cn in L. replace (dot (vsub x (scen s)) (vsub (vadd (vadd (vscale w0 a) (vscale w1 b)) (vscale w2 c)) (vadd (vadd (vscale w0 a) (vscale w1 b)) (vscale w2 c)))) with 0 in L by (clear; spec_unfold; ring).
    lra. }
  pose proof (dot_self_nonneg (vsub x (scen s))) as Q. clearbody w0 w1 w2.
  assert (F : (w0 + w1 + w2) * (srad s * srad s) <= (w0 + w1 + w2) * (r * r)) by nra.
  apply Rmult_le_reg_l in F; [|exact W]. nra.
Qed.
Lemma test2_out a b p : inside3 (zSphere3DFrom2 a b) p = false -> 0 < dot (vsub a p) (vsub b p).
Proof.
  unfold inside3. intros H. destruct (zSphere3DPointIsInside (zSphere3DFrom2 a b) p zTOL) eqn:E; [discriminate|].
  destruct (Rlt_dec (dist (scen (zSphere3DFrom2 a b)) p) (srad (zSphere3DFrom2 a b) + zTOL)) as [L|L]; [apply sphere_inside in L; congruence|].
  destruct (sphere_from2 a b) as (Da & _). pose proof zTOL_pos. apply outside_acute. unfold zSphere3DFrom2, zSphere3DCreate in *. cbn [scen srad] in *. lra.
Qed.
Lemma test2_least a b l : List.In a l -> List.In b l -> least_ball (srad (zSphere3DFrom2 a b)) l.
Proof. intros A B c r H. destruct (sphere_from2 a b) as (_ & _ & M). apply (M c r); apply H; assumption. Qed.
Lemma test2_on a b : on_sphere (scen (zSphere3DFrom2 a b)) (srad (zSphere3DFrom2 a b)) [a; b].
Proof. destruct (sphere_from2 a b) as (A & B & _). intros p [<-|[<-|[]]]; assumption. Qed.
Lemma from3_some a b c s : zSphere3DFrom3 a b c = Some s -> tri_normal a b c <> v3zero.
Proof. unfold zSphere3DFrom3. intros E Z. apply circum_none in Z. rewrite Z in E. discriminate. Qed.
Lemma from3_on a b c s : zSphere3DFrom3 a b c = Some s -> on_sphere (scen s) (srad s) [a; b; c].
Proof. intros E. destruct (sphere_from3 a b c (from3_some _ _ _ _ E)) as (s' & E' & A & B & C & _). rewrite E in E'. injection E' as <-. intros p [<-|[<-|[<-|[]]]]; assumption. Qed.

(** ** in the plane *)
Lemma emb_mid a b : zVec3DMid (emb a) (emb b) = emb (zVec2DMid a b).
Proof. unfold zVec3DMid, zVec2DMid. replace 0.5 with (1 / 2) by lra. unfold zVec2DInterDiv, zVec2DCat, zVec2DSub, emb. apply vec3_ext; spec_unfold; pcbn; lra. Qed.
Lemma emb_from2 a b : scen (zSphere3DFrom2 (emb a) (emb b)) = emb (dcen (zDisk2DFrom2 a b)) /\ srad (zSphere3DFrom2 (emb a) (emb b)) = drad (zDisk2DFrom2 a b).
Proof. unfold zSphere3DFrom2, zSphere3DCreate, zDisk2DFrom2. cbn [scen srad dcen drad]. rewrite emb_mid. zvg. rewrite emb_dist. auto. Qed.
Lemma emb_inside s d p : scen s = emb (dcen d) -> srad s = drad d -> inside3 s (emb p) = inside2 d p.
Proof.
  intros C R. unfold inside3, inside2. apply Bool.eq_iff_eq_true. rewrite sphere_inside, disk_inside, C, R, emb_dist. reflexivity.
Qed.
Lemma emb_from3 a b c d : zDisk2DFrom3 a b c = Some d -> exists s, zSphere3DFrom3 (emb a) (emb b) (emb c) = Some s /\ scen s = emb (dcen d) /\ srad s = drad d.
Proof.
  unfold zDisk2DFrom3, zSphere3DFrom3. rewrite emb_circum. destruct (triCircumcenter2 a b c) as [x|]; [|discriminate]. intros E. injection E as <-. cbn [option_map]. eexists. split; [reflexivity|].
  unfold zSphere3DCreate. cbn [scen srad dcen drad]. zvg. rewrite emb_dist. auto.
Qed.
Lemma emb_least r l : least_ball r (map emb l) -> least_disk r l.
Proof.
  intros H c r' K. apply (H (emb c) r'). intros p I. apply in_map_iff in I. destruct I as (q & <- & I). unfold ball. rewrite emb_dist. apply K, I.
Qed.
Lemma least_more r l l' : incl l l' -> least_disk r l -> least_disk r l'.
Proof. intros I H c r' K. apply (H c r'). intros p J. apply K, I, J. Qed.
Lemma least_more3 r l l' : incl l l' -> least_ball r l -> least_ball r l'.
Proof. intros I H c r' K. apply (H c r'). intros p J. apply K, I, J. Qed.

Definition good2 (s : list vec2) (b : found vec2 disk2) : Prop :=
  exists d, fball b = Some d /\ incl (fpoints b) s /\ fpoints b <> [] /\ (length (fpoints b) <= 3)%nat /\ on_circle (dcen d) (drad d) (fpoints b) /\ least_disk (drad d) s /\ 0 <= drad d.
Lemma good_pair a b s : List.In a s -> List.In b s -> good2 s (FD [a; b] (Some (zDisk2DFrom2 a b))).
Proof.
  intros A B. exists (zDisk2DFrom2 a b). destruct (disk_from2 a b) as (Da & Db & M). cbn [fball fpoints]. split; [reflexivity|].
  split; [intros x [<-|[<-|[]]]; assumption|]. split; [discriminate|]. split; [cbn; lia|]. split; [intros p [<-|[<-|[]]]; assumption|]. split.
  - intros c r H. apply (M c r); apply H; assumption.
  - rewrite <- Da. rewrite <- emb_dist. apply norm_nonneg.
Qed.
Lemma disk_out a b p : inside2 (zDisk2DFrom2 a b) p = false -> 0 < dot (vsub (emb a) (emb p)) (vsub (emb b) (emb p)).
Proof. intros H. destruct (emb_from2 a b) as (C & R). rewrite <- (emb_inside _ _ p C R) in H. apply test2_out, H. Qed.
Lemma good_three a b c : good2 [a; b; c] (zBoundingBall2D3 a b c).
Proof.
  unfold zBoundingBall2D3, zBoundingBall2DTest2. fold (inside2 (zDisk2DFrom2 a b) c). fold (inside2 (zDisk2DFrom2 b c) a). fold (inside2 (zDisk2DFrom2 c a) b).
  destruct (inside2 (zDisk2DFrom2 a b) c) eqn:T1; cbn [firstOf]; [apply good_pair; cbn; auto|].
  destruct (inside2 (zDisk2DFrom2 b c) a) eqn:T2; cbn [firstOf]; [apply good_pair; cbn; auto|].
  destruct (inside2 (zDisk2DFrom2 c a) b) eqn:T3; cbn [firstOf]; [apply good_pair; cbn; auto|].
  apply disk_out in T1, T2, T3. rewrite (dot_comm (vsub (emb c) (emb b))) in T3.
  pose proof (acute_normal (emb a) (emb b) (emb c) T2 T3 T1) as N. unfold zBoundingBall2DTest3.
  assert (Ar : area2 a b c <> 0) by (intros Z; apply N; rewrite emb_normal, Z; reflexivity).
  destruct (disk_from3 a b c Ar) as (d & E & Da & Db & Dc). exists d. cbn [fball fpoints]. split; [exact E|]. split; [apply incl_refl|]. split; [discriminate|]. split; [cbn; lia|].
  split; [intros p [<-|[<-|[<-|[]]]]; assumption|]. split; [|rewrite <- Da, <- emb_dist; apply norm_nonneg].
  destruct (emb_from3 a b c d E) as (s & Es & _ & Rs). apply emb_least. rewrite <- Rs. apply (acute_least (emb a) (emb b) (emb c) s); try assumption; apply Rlt_le; assumption.
Qed.
Lemma good_direct s b : (length s <= 3)%nat -> s <> [] -> zBoundingBall2DDirect s = Some b -> good2 s b.
Proof.
  intros L N E. destruct s as [|x [|y [|z [|w s]]]]; [contradiction| | | |cbn in L; lia]; cbn in E; injection E as <-.
  - exists (DK x 0). cbn [fball fpoints dcen drad]. split; [reflexivity|]. split; [apply incl_refl|]. split; [discriminate|]. split; [cbn; lia|].
    split; [|split; [|lra]].
    + intros p [<-|[]]. rewrite <- emb_dist. unfold dist. replace (vsub (emb x) (emb x)) with v3zero by vring. apply norm_zero_iff. reflexivity.
    + intros c r H. eapply Rle_trans; [|apply (H x); left; reflexivity]. rewrite <- emb_dist. apply norm_nonneg.
  - apply good_pair; cbn; auto.
  - apply good_three.
Qed.
Lemma direct2_total s : (length s <= 3)%nat -> zBoundingBall2DDirect s <> None.
Proof. intros L. destruct s as [|x [|y [|z [|w s]]]]; try discriminate. cbn in L. lia. Qed.
Lemma direct2_nil b p : zBoundingBall2DDirect [] = Some b -> contains inside2 b p = false.
Proof.
  cbn. intros E. injection E as <-. unfold contains. cbn [fball]. destruct (inside2 (DK v2zero (-1)) p) eqn:K; [|reflexivity]. exfalso. unfold inside2 in K. apply disk_inside in K. cbn [dcen drad] in K.
  pose proof zTOL_small. assert (0 <= dist2 v2zero p) by (rewrite <- emb_dist; apply norm_nonneg). lra.
Qed.

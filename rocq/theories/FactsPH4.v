(** Proofs about polyhedra: closest point and inside test of convex polyhedra. *)
From Verif Require Import Base Spec SpecMesh ModelPH FactsVec FactsAlg FactsMat FactsElem FactsTri FactsTri2 FactsCentre FactsFrame FactsBox FactsObb FactsRound FactsSolid FactsPH FactsPH2.
Open Scope R_scope.

Definition created (t : tri3) : Prop := zTri3DCreate (tv0 t) (tv1 t) (tv2 t) = (true, t).
Lemma dist_nonneg a b : 0 <= dist a b. Proof. apply norm_nonneg. Qed.
Lemma dist_self a : dist a a = 0. Proof. unfold dist. apply norm_zero_iff. vring. Qed.
Lemma dist_zero_iff a b : dist a b = 0 -> a = b.
Proof. unfold dist. intros H. apply norm_zero_iff in H. apply (sub3_inj _ _ b). rewrite H. vring. Qed.
(** signed height over the plane of a face *)
Definition height (t : tri3) (x : vec3) : R := dot (vsub x (tv0 t)) (tri_normal (tv0 t) (tv1 t) (tv2 t)).
Definition below_all (ts : list tri3) (x : vec3) : Prop := forall t, List.In t ts -> height t x <= 0.

Definition mix (s : R) (y p : vec3) : vec3 := vadd y (vscale s (vsub p y)).
Lemma height_mix t s y p : height t (mix s y p) = (1 - s) * height t y + s * height t p.
Proof. unfold height, mix. generalize (tri_normal (tv0 t) (tv1 t) (tv2 t)). intros n. spec_unfold. ring. Qed.
Lemma mix_mix s s' y p : mix s' y (mix s y p) = mix (s' * s) y p.
Proof. unfold mix. vring. Qed.
Lemma exit ts y p : below_all ts y -> below_all ts p \/
  exists t s, List.In t ts /\ 0 <= s <= 1 /\ 0 < height t p /\ height t (mix s y p) = 0 /\ below_all ts (mix s y p).
Proof.
  induction ts as [|t0 ts IH]; intros H; [left; intros t []|].
  assert (H0 : height t0 y <= 0) by (apply H; left; reflexivity).
  destruct IH as [B|(t & s & I & S & P & Z & B)]; [intros t I; apply H; right; exact I| |].
  - destruct (Rle_lt_dec (height t0 p) 0) as [L|L].
    + left. intros t [<-|I]; [exact L|apply B, I].
    + right. set (s := - height t0 y / (height t0 p - height t0 y)).
      assert (D : 0 < height t0 p - height t0 y) by lra.
      assert (Es : s * (height t0 p - height t0 y) = - height t0 y) by (unfold s; field; lra).
      assert (S : 0 <= s <= 1) by (split; nra).
      exists t0, s. split; [left; reflexivity|]. split; [exact S|]. split; [exact L|].
      assert (Z : height t0 (mix s y p) = 0) by (rewrite height_mix; lra). split; [exact Z|].
      intros t [<-|I]; [lra|]. rewrite height_mix. specialize (B t I). assert (height t y <= 0) by (apply H; right; exact I). nra.
  - right. destruct (Rle_lt_dec (height t0 (mix s y p)) 0) as [L|L].
    + exists t, s. split; [right; exact I|]. split; [exact S|]. split; [exact P|]. split; [exact Z|]. intros t' [<-|I']; [exact L|apply B, I'].
    + set (h := height t0 (mix s y p)) in *. set (r := - height t0 y / (h - height t0 y)).
      assert (D : 0 < h - height t0 y) by lra.
      assert (Er : r * (h - height t0 y) = - height t0 y) by (unfold r; field; lra).
      assert (Sr : 0 <= r <= 1) by (split; nra).
      exists t0, (r * s). split; [left; reflexivity|]. split; [nra|].
      assert (Hp : 0 < height t0 p).
      { unfold h in L. rewrite height_mix in L. assert (0 < s) by (destruct (Req_dec s 0) as [E|E]; [rewrite E in L; lra|lra]). nra. }
      split; [exact Hp|]. rewrite <- mix_mix.
      assert (Z' : height t0 (mix r y (mix s y p)) = 0) by (rewrite height_mix; fold h; lra). split; [exact Z'|].
      intros t' [<-|I']; [lra|]. rewrite height_mix. specialize (B t' I'). assert (height t' y <= 0) by (apply H; right; exact I'). nra.
Qed.
Lemma dist_mix s y p : 0 <= s <= 1 -> dist p (mix s y p) <= dist p y.
Proof.
  intros S. unfold dist. replace (vsub p (mix s y p)) with (vscale (1 - s) (vsub p y)) by (unfold mix; vring).
  rewrite norm_scale, Rabs_pos_eq by lra. pose proof (norm_nonneg (vsub p y)). nra.
Qed.

(** a convex polyhedral surface with outward faces: the solid is the common part
    of the half spaces of the faces, the faces belong to it, and cover its boundary *)
Definition convex_surface (ts : list tri3) : Prop :=
  (forall t x, List.In t ts -> in_triangle (tv0 t) (tv1 t) (tv2 t) x -> below_all ts x) /\
  (forall t x, List.In t ts -> below_all ts x -> height t x = 0 ->
     exists t' k, List.In t' ts /\ 0 < k /\ (forall y, height t' y = k * height t y) /\ in_triangle (tv0 t') (tv1 t') (tv2 t') x).

(** the scan over the faces *)
Lemma signed_case t p : created t -> exists d cp, zTri3DSignedClosest t p = Some (d, cp) /\ nearest (in_triangle (tv0 t) (tv1 t) (tv2 t)) p cp /\ Rabs d = dist p cp /\
  (0 < height t p -> 0 < d) /\ (height t p < 0 -> d < 0) /\ (height t p = 0 -> 0 <= d).
Proof.
  intros C. destruct (tri3_signed _ _ _ p t C) as (d & cp & E & N & A & P & M). exists d, cp. repeat (split; [assumption|]).
  intros Z. unfold zTri3DSignedClosest in E. destruct (zTri3DClosest t p) as [[d0 cp0]|] eqn:E0; [|discriminate].
  unfold created, zTri3DCreate, triOuterProd in C. change (zVec3DOuterProd (zVec3DSub (tv1 t) (tv0 t)) (zVec3DSub (tv2 t) (tv1 t))) with (cross (vsub (tv1 t) (tv0 t)) (vsub (tv2 t) (tv1 t))) in C.
  rewrite tri_normal_alt in C. set (n := tri_normal (tv0 t) (tv1 t) (tv2 t)) in *.
  destruct (zVec3DIsTiny n) eqn:T; [discriminate|]. pose proof T as T'. apply zVec3DIsTiny_false in T. rewrite (normalizeDRC_ok n T) in C. injection C as C.
  assert (ET : tnorm t = vscale (1 / norm n) n) by (rewrite <- C; reflexivity).
  assert (D0 : zTri3DDistFromPointToPlane t p = 0).
  { unfold zTri3DDistFromPointToPlane. zvg. rewrite ET, !dot_scale_r. unfold height in Z. fold n in Z.
    assert (Z1 : dot (vsub p (tv1 t)) n = dot (vsub p (tv0 t)) n) by (unfold n, tri_normal; clear; spec_unfold; ring).
    assert (Z2 : dot (vsub p (tv2 t)) n = dot (vsub p (tv0 t)) n) by (unfold n, tri_normal; clear; spec_unfold; ring).
    rewrite Z1, Z2, Z. field. pose proof (nonneg_norm_pos n T). lra. }
  rewrite D0 in E. rewrite (proj2 (Rleb_true 0 0)) in E by lra. injection E as <- <-.
  destruct (tri3_closest t p) as (d1 & cp1 & E1 & _ & D1). { left. fold n. exact T. }
  rewrite E0 in E1. injection E1 as <- <-. rewrite D1. apply dist_nonneg.
Qed.
(** invariant of the scan: the least positive value among the faces seen *)
Definition best_of (p : vec3) (ts : list tri3) (b : option (R * vec3)) : Prop :=
  match b with
  | None => forall t d cp, List.In t ts -> zTri3DSignedClosest t p = Some (d, cp) -> d <= 0
  | Some (d, cp) => 0 < d /\ (exists t, List.In t ts /\ zTri3DSignedClosest t p = Some (d, cp)) /\
      (forall t d' cp', List.In t ts -> zTri3DSignedClosest t p = Some (d', cp') -> 0 < d' -> d <= d')
  end.
Lemma scan_spec p ts : Forall created ts -> exists b, fold_left (zPH3DClosestStep p) ts (Some None) = Some b /\ best_of p ts b.
Proof.
  assert (G : forall done ts b, Forall created ts -> best_of p done b -> exists b', fold_left (zPH3DClosestStep p) ts (Some b) = Some b' /\ best_of p (done ++ ts) b').
  { intros done l. revert done. induction l as [|t l IH]; intros done b F B.
    - exists b. rewrite app_nil_r. split; [reflexivity|exact B].
    - inversion F as [|t1 l1 C F1]; subst. cbn [fold_left]. unfold zPH3DClosestStep at 2.
      destruct (signed_case t p C) as (d & cp & E & _). rewrite E.
      replace (done ++ t :: l) with ((done ++ [t]) ++ l) by (rewrite <- app_assoc; reflexivity).
      assert (INJ : forall d' cp', zTri3DSignedClosest t p = Some (d', cp') -> d' = d /\ cp' = cp) by (intros d' cp' E'; rewrite E in E'; injection E' as <- <-; auto).
      destruct (Rltb_reflect 0 d) as [L|L].
      + destruct b as [[dm cm]|].
        * destruct B as (B1 & B2 & B3). destruct (Rltb_reflect d dm) as [L2|L2]; apply IH; try exact F1.
          -- split; [exact L|]. split; [exists t; split; [apply in_or_app; right; left; reflexivity|exact E]|].
             intros t' d' cp' I E' P. apply in_app_or in I. destruct I as [I|[<-|[]]]; [specialize (B3 _ _ _ I E' P); lra|destruct (INJ _ _ E'); lra].
          -- split; [exact B1|]. split; [destruct B2 as (t' & I & E'); exists t'; split; [apply in_or_app; left; exact I|exact E']|].
             intros t' d' cp' I E' P. apply in_app_or in I. destruct I as [I|[<-|[]]]; [exact (B3 _ _ _ I E' P)|destruct (INJ _ _ E'); lra].
        * apply IH; [exact F1|]. split; [exact L|]. split; [exists t; split; [apply in_or_app; right; left; reflexivity|exact E]|].
          intros t' d' cp' I E' P. apply in_app_or in I. destruct I as [I|[<-|[]]]; [specialize (B _ _ _ I E'); lra|destruct (INJ _ _ E'); lra].
      + apply IH; [exact F1|]. destruct b as [[dm cm]|].
        * destruct B as (B1 & B2 & B3). split; [exact B1|]. split; [destruct B2 as (t' & I & E'); exists t'; split; [apply in_or_app; left; exact I|exact E']|].
          intros t' d' cp' I E' P. apply in_app_or in I. destruct I as [I|[<-|[]]]; [exact (B3 _ _ _ I E' P)|destruct (INJ _ _ E'); lra].
        * intros t' d' cp' I E'. apply in_app_or in I. destruct I as [I|[<-|[]]]; [exact (B _ _ _ I E')|destruct (INJ _ _ E'); lra]. }
  intros F. apply (G [] ts None F). intros t d cp [].
Qed.
Lemma closest_scan ph ts p : zPH3DTris ph = Some ts -> Forall created ts -> exists b, best_of p ts b /\ zPH3DClosest ph p = Some (match b with None => (0, p) | Some r => r end).
Proof.
  intros E F. destruct (scan_spec p ts F) as (b & S & B). exists b. split; [exact B|]. unfold zPH3DClosest. rewrite E, S. destruct b as [[d cp]|]; reflexivity.
Qed.
(** outside of the solid the result is right *)
Lemma ph_closest_outside ph ts p : zPH3DTris ph = Some ts -> Forall created ts -> convex_surface ts -> (exists y, below_all ts y) -> ~ below_all ts p ->
  exists d cp, zPH3DClosest ph p = Some (d, cp) /\ nearest (below_all ts) p cp /\ d = dist p cp /\ 0 < d.
Proof.
  intros E F (CV1 & CV2) (y0 & Hy0) Out. destruct (closest_scan ph ts p E F) as (b & B & R).
  assert (K : forall y, below_all ts y -> exists t d cp, List.In t ts /\ zTri3DSignedClosest t p = Some (d, cp) /\ 0 < d /\ d <= dist p y).
  { intros y Hy. destruct (exit ts y p Hy) as [A|(t & s & I & S & P & Z & A)]; [contradiction|].
    destruct (CV2 t _ I A Z) as (t' & k & I' & Kp & Hk & T').
    assert (C' : created t') by (rewrite Forall_forall in F; apply F, I').
    destruct (signed_case t' p C') as (d & cp & E' & (N1 & N2) & Ad & Pd & _). exists t', d, cp. split; [exact I'|]. split; [exact E'|].
    assert (Dp : 0 < d) by (apply Pd; rewrite Hk; nra). split; [exact Dp|].
    rewrite Rabs_pos_eq in Ad by lra. rewrite Ad. eapply Rle_trans; [apply N2, T'|]. apply dist_mix, S. }
  destruct b as [[d cp]|].
  - destruct B as (B1 & (t & I & Et) & B3). exists d, cp. split; [exact R|].
    assert (C : created t) by (rewrite Forall_forall in F; apply F, I).
    destruct (signed_case t p C) as (d' & cp' & E' & (N1 & N2) & Ad & _). rewrite Et in E'. injection E' as <- <-. rewrite Rabs_pos_eq in Ad by lra.
    split; [|split; [exact Ad|exact B1]]. split; [apply (CV1 t); assumption|].
    intros y Hy. destruct (K y Hy) as (t2 & d2 & cp2 & I2 & E2 & P2 & L2). specialize (B3 _ _ _ I2 E2 P2). lra.
  - exfalso. destruct (K y0 Hy0) as (t & d & cp & I & Et & P & _). specialize (B _ _ _ I Et). lra.
Qed.
(** in the open interior: distance 0, the point itself *)
Lemma ph_closest_inside ph ts p : zPH3DTris ph = Some ts -> Forall created ts -> (forall t, List.In t ts -> height t p < 0) -> zPH3DClosest ph p = Some (0, p).
Proof.
  intros E F In. destruct (closest_scan ph ts p E F) as (b & B & R). destruct b as [[d cp]|]; [|exact R]. exfalso. destruct B as (B1 & (t & I & Et) & _).
  assert (C : created t) by (rewrite Forall_forall in F; apply F, I). destruct (signed_case t p C) as (d' & cp' & E' & _ & _ & _ & M & _).
  rewrite Et in E'. injection E' as <- <-. specialize (M (In t I)). lra.
Qed.
(** on the surface: the answer is right only if no face plane through the point
    belongs to a face that misses the point *)
Lemma ph_closest_surface ph ts p : zPH3DTris ph = Some ts -> Forall created ts -> below_all ts p ->
  (zPH3DClosest ph p = Some (0, p) <-> forall t, List.In t ts -> height t p = 0 -> in_triangle (tv0 t) (tv1 t) (tv2 t) p).
Proof.
  intros E F In. destruct (closest_scan ph ts p E F) as (b & B & R). split.
  - intros R'. rewrite R' in R. intros t I Z. assert (C : created t) by (rewrite Forall_forall in F; apply F, I).
    destruct (signed_case t p C) as (d & cp & Et & (N1 & N2) & Ad & _ & _ & Pz). specialize (Pz Z).
    assert (D0 : d <= 0). { destruct b as [[dm cm]|]; [destruct B as (B1 & _); injection R as <- <-; lra|exact (B _ _ _ I Et)]. }
    assert (d = 0) by lra. subst d. rewrite Rabs_R0 in Ad. symmetry in Ad. apply dist_zero_iff in Ad. rewrite Ad. exact N1.
  - intros H. destruct b as [[d cp]|]; [|exact R]. exfalso. destruct B as (B1 & (t & I & Et) & _).
    assert (C : created t) by (rewrite Forall_forall in F; apply F, I). destruct (signed_case t p C) as (d' & cp' & E' & (N1 & N2) & Ad & _ & M & _).
    rewrite Et in E'. injection E' as <- <-. destruct (Rle_lt_or_eq_dec _ _ (In t I)) as [L|Z]; [specialize (M L); lra|].
    specialize (H t I Z). specialize (N2 p H). rewrite dist_self in N2. pose proof (dist_nonneg p cp). rewrite Rabs_pos_eq in Ad by lra. lra.
Qed.
Lemma plane_dist t p : created t -> zTri3DDistFromPointToPlane t p = height t p / norm (tri_normal (tv0 t) (tv1 t) (tv2 t)) /\ 0 < norm (tri_normal (tv0 t) (tv1 t) (tv2 t)).
Proof.
  intros C. unfold created, zTri3DCreate, triOuterProd in C. change (zVec3DOuterProd (zVec3DSub (tv1 t) (tv0 t)) (zVec3DSub (tv2 t) (tv1 t))) with (cross (vsub (tv1 t) (tv0 t)) (vsub (tv2 t) (tv1 t))) in C.
  rewrite tri_normal_alt in C. unfold height. set (n := tri_normal (tv0 t) (tv1 t) (tv2 t)) in *.
  destruct (zVec3DIsTiny n) eqn:T; [discriminate|]. apply zVec3DIsTiny_false in T. rewrite (normalizeDRC_ok n T) in C. injection C as C.
  assert (ET : tnorm t = vscale (1 / norm n) n) by (rewrite <- C; reflexivity). pose proof (nonneg_norm_pos n T) as P. split; [|exact P].
  unfold zTri3DDistFromPointToPlane. zvg. rewrite ET, !dot_scale_r.
  assert (Z1 : dot (vsub p (tv1 t)) n = dot (vsub p (tv0 t)) n) by (unfold n, tri_normal; clear; spec_unfold; ring).
  assert (Z2 : dot (vsub p (tv2 t)) n = dot (vsub p (tv0 t)) n) by (unfold n, tri_normal; clear; spec_unfold; ring).
  rewrite Z1, Z2. field. lra.
Qed.
Lemma ph_inside ph ts p margin : zPH3DTris ph = Some ts -> Forall created ts ->
  exists b, zPH3DPointIsInside ph p margin = Some b /\
   (b = true <-> forall t, List.In t ts -> height t p < margin * norm (tri_normal (tv0 t) (tv1 t) (tv2 t))) /\
   (forall x, below_all ts x -> dist p x < margin -> b = true).
Proof.
  intros E F. unfold zPH3DPointIsInside. rewrite E. eexists. split; [reflexivity|].
  assert (X : forallb (fun t => negb (Rleb margin (zTri3DDistFromPointToPlane t p))) ts = true <-> forall t, List.In t ts -> height t p < margin * norm (tri_normal (tv0 t) (tv1 t) (tv2 t))).
  { rewrite forallb_forall. rewrite Forall_forall in F. split; intros H t I; specialize (H t I); destruct (plane_dist t p (F t I)) as (D & P).
    - rewrite D in H. destruct (Rleb_reflect margin (height t p / norm (tri_normal (tv0 t) (tv1 t) (tv2 t)))) as [L|L]; [discriminate|]. apply Rnot_le_lt in L.
      apply (Rmult_lt_compat_r _ _ _ P) in L. unfold Rdiv in L. rewrite Rmult_assoc, Rinv_l, Rmult_1_r in L by lra. exact L.
    - rewrite D. destruct (Rleb_reflect margin (height t p / norm (tri_normal (tv0 t) (tv1 t) (tv2 t)))) as [L|L]; [|reflexivity]. exfalso.
      apply (Rmult_le_compat_r _ _ _ (Rlt_le _ _ P)) in L. unfold Rdiv in L. rewrite Rmult_assoc, Rinv_l, Rmult_1_r in L by lra. lra. }
  split; [exact X|]. intros x Hx L. apply X. intros t I. specialize (Hx t I). rewrite Forall_forall in F. destruct (plane_dist t p (F t I)) as (_ & P).
  unfold height in *. set (n := tri_normal (tv0 t) (tv1 t) (tv2 t)) in *.
  assert (S : dot (vsub p (tv0 t)) n = dot (vsub x (tv0 t)) n + dot (vsub p x) n) by (clearbody n; clear; spec_unfold; ring).
  pose proof (cauchy_norm (vsub p x) n) as CA. pose proof (Rle_abs (dot (vsub p x) n)). unfold dist in L. rewrite S.
  assert (norm (vsub p x) * norm n < margin * norm n) by (apply Rmult_lt_compat_r; assumption). lra.
Qed.
(** ** polyhedra whose stored normals belong to their faces *)
Definition sound_ph (ph : ph3) : Prop :=
  valid_ph ph /\ fresh ph /\
  Forall (fun f => ~ negligible (tri_normal (vpos (pverts ph) (fi0 f)) (vpos (pverts ph) (fi1 f)) (vpos (pverts ph) (fi2 f)))) (pfaces ph).
Definition solid_tris (ph : ph3) : list tri3 := map (tri_at (pverts ph)) (pfaces ph).
Lemma created_ok a b c : ~ negligible (tri_normal a b c) -> created (snd (zTri3DCreate a b c)).
Proof.
  intros H. assert (E : zTri3DCreate a b c = (true, T3 a b c (snd (zVec3DNormalizeDRC (tri_normal a b c))))).
  { unfold zTri3DCreate, triOuterProd. change (zVec3DOuterProd (zVec3DSub b a) (zVec3DSub c b)) with (cross (vsub b a) (vsub c b)).
    rewrite tri_normal_alt. destruct (zVec3DIsTiny (tri_normal a b c)) eqn:T; [apply zVec3DIsTiny_true in T; contradiction|]. reflexivity. }
  unfold created. rewrite E. cbn [snd tv0 tv1 tv2]. exact E.
Qed.
Lemma create_verts a b c : tv0 (snd (zTri3DCreate a b c)) = a /\ tv1 (snd (zTri3DCreate a b c)) = b /\ tv2 (snd (zTri3DCreate a b c)) = c.
Proof. unfold zTri3DCreate. destruct (zVec3DIsTiny _); cbn; auto. Qed.
Lemma sound_tris ph : sound_ph ph -> zPH3DTris ph = Some (solid_tris ph) /\ Forall created (solid_tris ph).
Proof.
  intros (V & F & N). split; [apply tris_ok, V|]. unfold solid_tris. apply Forall_forall. intros t I. apply in_map_iff in I as (f & <- & I).
  unfold fresh in F. rewrite Forall_forall in F, N. specialize (F f I). specialize (N f I). unfold tri_at. rewrite F.
  pose proof (created_ok _ _ _ N) as C. destruct (create_verts (vpos (pverts ph) (fi0 f)) (vpos (pverts ph) (fi1 f)) (vpos (pverts ph) (fi2 f))) as (A & B & D).
  destruct (snd (zTri3DCreate (vpos (pverts ph) (fi0 f)) (vpos (pverts ph) (fi1 f)) (vpos (pverts ph) (fi2 f)))) as [a b c n]. cbn in A, B, D |- *. subst. exact C.
Qed.
Definition solid (ph : ph3) (x : vec3) : Prop := below_all (solid_tris ph) x.
Lemma convex_closest ph p : sound_ph ph -> convex_surface (solid_tris ph) -> (exists y, solid ph y) ->
  exists d cp, zPH3DClosest ph p = Some (d, cp) /\
  (~ solid ph p -> nearest (solid ph) p cp /\ d = dist p cp /\ 0 < d) /\
  ((forall t, List.In t (solid_tris ph) -> height t p < 0) -> d = 0 /\ cp = p) /\
  (solid ph p -> (d = 0 /\ cp = p <-> forall t, List.In t (solid_tris ph) -> height t p = 0 -> in_triangle (tv0 t) (tv1 t) (tv2 t) p)).
Proof.
  intros S C Y. destruct (sound_tris ph S) as (E & F). destruct (closest_scan ph _ p E F) as (b & _ & R).
  destruct (match b with None => (0, p) | Some r => r end) as [d cp]. exists d, cp. split; [exact R|]. split; [|split].
  - intros O. destruct (ph_closest_outside ph _ p E F C Y O) as (d' & cp' & R' & N & D & P). rewrite R in R'. injection R' as <- <-. auto.
  - intros I. rewrite (ph_closest_inside ph _ p E F I) in R. injection R as <- <-. auto.
  - intros I. rewrite <- (ph_closest_surface ph _ p E F I). rewrite R. split; [intros (-> & ->); reflexivity|intros X; injection X as <- <-; auto].
Qed.
Lemma convex_inside ph p margin : sound_ph ph ->
  exists b, zPH3DPointIsInside ph p margin = Some b /\
   (b = true <-> forall t, List.In t (solid_tris ph) -> height t p < margin * norm (tri_normal (tv0 t) (tv1 t) (tv2 t))) /\
   (forall x, solid ph x -> dist p x < margin -> b = true) /\
   (b = true -> margin <= 0 -> solid ph p).
Proof.
  intros S. destruct (sound_tris ph S) as (E & F). destruct (ph_inside ph _ p margin E F) as (b & R & A & B). exists b. split; [exact R|]. split; [exact A|]. split; [exact B|].
  intros T M t I. specialize (proj1 A T t I). pose proof (norm_nonneg (tri_normal (tv0 t) (tv1 t) (tv2 t))). nra.
Qed.
Lemma ph_contig ph p : match zPH3DContigVert ph p with
  | None => pverts ph = []
  | Some (v, d) => List.In v (pverts ph) /\ d = dist p v /\ forall w, List.In w (pverts ph) -> d <= dist p w
  end.
Proof.
  unfold zPH3DContigVert. destruct (pverts ph) as [|v0 t]; [reflexivity|].
  assert (G : forall t done v d, List.In v done -> d = dist p v -> (forall w, List.In w done -> d <= dist p w) ->
    let '(v', d') := fold_left (fun acc nv => let '(v, dmin) := acc in let d := zVec3DDist nv p in if Rltb d dmin then (nv, d) else acc) t (v, d) in
    List.In v' (done ++ t) /\ d' = dist p v' /\ forall w, List.In w (done ++ t) -> d' <= dist p w).
  { clear. induction t as [|a t IH]; intros done v d H1 H2 H3; [cbn; rewrite app_nil_r; auto|]. cbn [fold_left].
    change (zVec3DDist a p) with (dist a p). rewrite (dist_sym a p).
    replace (done ++ a :: t) with ((done ++ [a]) ++ t) by (rewrite <- app_assoc; reflexivity).
    destruct (Rltb_reflect (dist p a) d) as [L|L]; apply IH.
    - apply in_or_app; right; left; reflexivity.
    - reflexivity.
    - intros w I. apply in_app_or in I. destruct I as [I|[<-|[]]]; [specialize (H3 w I)|]; lra.
    - apply in_or_app; left; exact H1.
    - exact H2.
    - intros w I. apply in_app_or in I. destruct I as [I|[<-|[]]]; [exact (H3 w I)|lra]. }
  specialize (G t [v0] v0 (dist p v0) (or_introl eq_refl) eq_refl). cbn [app] in G. apply G. intros w [<-|[]]. lra.
Qed.
Lemma ph_aabb ph : 
  (forall v, List.In v (pverts ph) -> in_box (zPH3DAABB ph) v) /\ in_box (zPH3DAABB ph) v3zero /\
  (forall b, in_box b v3zero -> (forall v, List.In v (pverts ph) -> in_box b v) -> forall x, in_box (zPH3DAABB ph) x -> in_box b x).
Proof.
  unfold zPH3DAABB. assert (P0 : proper (B3 v3zero v3zero)) by (unfold proper; cbn; lra). assert (O0 : in_box (B3 v3zero v3zero) v3zero) by (unfold in_box; cbn; lra).
  assert (L0 : forall b, in_box b v3zero -> forall x, in_box (B3 v3zero v3zero) x -> in_box b x) by (intros b I x X; unfold in_box in *; cbn in *; lra).
  revert P0 O0 L0. generalize (B3 v3zero v3zero) as b0. generalize (pverts ph) as l.
  assert (G : forall l b0, proper b0 -> (forall v, List.In v l -> in_box (fold_left zAABox3DEnlarge l b0) v) /\ (forall x, in_box b0 x -> in_box (fold_left zAABox3DEnlarge l b0) x) /\
     (forall b, (forall x, in_box b0 x -> in_box b x) -> (forall v, List.In v l -> in_box b v) -> forall x, in_box (fold_left zAABox3DEnlarge l b0) x -> in_box b x)).
  { induction l as [|v l IH]; intros b0 P; cbn [fold_left]; [split; [intros v []|auto]|].
    destruct (aab_enlarge b0 v P) as (P1 & A & B & C). destruct (IH _ P1) as (I1 & I2 & I3). split; [|split].
    - intros w [<-|I]; [apply I2, A|apply I1, I].
    - intros x X. apply I2, B, X.
    - intros b Hb Hl x X. apply (I3 b); [|intros w I; apply Hl; right; exact I|exact X]. intros y Y. apply (C b); [apply Hl; left; reflexivity|exact Hb|exact Y]. }
  intros l b0 P0 O0 L0. destruct (G l b0 P0) as (I1 & I2 & I3). split; [exact I1|]. split; [apply I2, O0|]. intros b Ob Hl x X. apply (I3 b); auto.
Qed.
(** ** examples *)
(** orientedness of concrete meshes by computation *)
Definition side_eqb (a b : nat * nat) : bool := Nat.eqb (fst a) (fst b) && Nat.eqb (snd a) (snd b).
Definition side_in (a : nat * nat) (l : list (nat * nat)) : bool := existsb (side_eqb a) l.
Fixpoint side_nodup (l : list (nat * nat)) : bool := match l with [] => true | a :: t => negb (side_in a t) && side_nodup t end.
Definition orientedb (fs : list (nat * nat * nat)) : bool := side_nodup (all_sides fs) && forallb (fun a => side_in (opp a) (all_sides fs)) (all_sides fs).
Lemma side_in_ok a l : side_in a l = true <-> List.In a l.
Proof.
  unfold side_in. rewrite existsb_exists. split.
  - intros (x & I & E). unfold side_eqb in E. apply andb_true_iff in E as (E1 & E2). apply Nat.eqb_eq in E1, E2. destruct a, x; cbn in *; subst; exact I.
  - intros I. exists a. split; [exact I|]. unfold side_eqb. rewrite !Nat.eqb_refl. reflexivity.
Qed.
Lemma side_nodup_ok l : side_nodup l = true -> NoDup l.
Proof.
  induction l as [|a t IH]; intros H; [constructor|]. cbn in H. apply andb_true_iff in H as (H1 & H2). constructor; [|apply IH, H2].
  intros I. apply side_in_ok in I. rewrite I in H1. discriminate.
Qed.
Lemma opp_opp {A} (e : A * A) : opp (opp e) = e. Proof. destruct e; reflexivity. Qed.
Lemma nodup_opp {A} (l : list (A * A)) : NoDup l -> NoDup (map opp l).
Proof.
  induction 1 as [|a t N D IH]; cbn [map]; constructor; [|exact IH]. intros I. apply in_map_iff in I as (b & E & I). apply N. rewrite <- (opp_opp a), <- E, opp_opp. exact I.
Qed.
Lemma oriented_in fs : NoDup (all_sides fs) -> (forall e, List.In e (all_sides fs) -> List.In (opp e) (all_sides fs)) -> oriented fs.
Proof.
  intros N H. split; [|exact N]. unfold closed. apply NoDup_Permutation; [exact N|apply nodup_opp, N|]. intros e. rewrite in_map_iff. split.
  - intros I. exists (opp e). split; [apply opp_opp|apply H, I].
  - intros (b & <- & I). apply H, I.
Qed.
Lemma oriented_check fs : orientedb fs = true -> oriented fs.
Proof.
  unfold orientedb. intros H. apply andb_true_iff in H as (H1 & H2). apply oriented_in; [apply side_nodup_ok, H1|]. intros e I.
  rewrite forallb_forall in H2. apply side_in_ok, H2, I.
Qed.
Definition mkface (vs : list vec3) (a b c : nat) : face := FC a b c (tnorm (snd (zTri3DCreate (vpos vs a) (vpos vs b) (vpos vs c)))).
Definition corner_verts : list vec3 := [V3 0 0 0; V3 1 0 0; V3 0 1 0; V3 0 0 1].
Definition corner_ph : ph3 := PH corner_verts [mkface corner_verts 0 2 1; mkface corner_verts 0 1 3; mkface corner_verts 0 3 2; mkface corner_verts 1 2 3].
Lemma not_negl_x v : zTOL <= Rabs (vx v) -> ~ negligible v. Proof. intros H (A & _). lra. Qed.
Lemma not_negl_y v : zTOL <= Rabs (vy v) -> ~ negligible v. Proof. intros H (_ & A & _). lra. Qed.
Lemma not_negl_z v : zTOL <= Rabs (vz v) -> ~ negligible v. Proof. intros H (_ & _ & A). lra. Qed.
Lemma corner_sound : sound_ph corner_ph /\ oriented (ph_faces corner_ph) /\ zPH3DVolume corner_ph = Some (1 / 6).
Proof.
  assert (V : valid_ph corner_ph) by (unfold valid_ph, indices_below, corner_ph; cbn; repeat constructor).
  pose proof zTOL_small as TS. split; [split; [exact V|split]|split].
  - unfold fresh, corner_ph; cbn [pfaces pverts]. repeat (constructor; [reflexivity|]). constructor.
  - unfold corner_ph; cbn [pfaces pverts]. repeat constructor; cbn [fi0 fi1 fi2 mkface vpos nth corner_verts].
    + apply not_negl_z. unfold tri_normal. spec_unfold. rewrite Rabs_left; lra.
    + apply not_negl_y. unfold tri_normal. spec_unfold. rewrite Rabs_left; lra.
    + apply not_negl_x. unfold tri_normal. spec_unfold. rewrite Rabs_left; lra.
    + apply not_negl_z. unfold tri_normal. spec_unfold. rewrite Rabs_right; lra.
  - apply oriented_check. reflexivity.
  - rewrite ph_volume by exact V. f_equal. unfold vol0, mesh_vol, ph_faces, corner_ph. cbn [pverts pfaces map rsum fold_right mkface fi0 fi1 fi2 corners vpos nth corner_verts cone_vol].
    unfold vol6. spec_unfold. field.
Qed.
Lemma corner_solid x : solid corner_ph x <-> 0 <= vx x /\ 0 <= vy x /\ 0 <= vz x /\ vx x + vy x + vz x <= 1.
Proof.
  destruct x as [a b c]. unfold solid, below_all, solid_tris, corner_ph, tri_at, height, tri_normal. cbn [pverts pfaces map mkface fi0 fi1 fi2 vpos nth corner_verts List.In]. split.
  - intros H. pose proof (H _ (or_introl eq_refl)) as H1. pose proof (H _ (or_intror (or_introl eq_refl))) as H2. pose proof (H _ (or_intror (or_intror (or_introl eq_refl)))) as H3.
    pose proof (H _ (or_intror (or_intror (or_intror (or_introl eq_refl))))) as H4. clear H. cbn [tv0 tv1 tv2] in *. revert H1 H2 H3 H4. spec_unfold. intros. lra.
  - intros (H1 & H2 & H3 & H4) t [<-|[<-|[<-|[<-|[]]]]]; cbn [tv0 tv1 tv2] in *; revert H1 H2 H3 H4; spec_unfold; intros; lra.
Qed.
Lemma corner_convex : convex_surface (solid_tris corner_ph).
Proof.
  split.
  - intros t x I (s0 & s1 & s2 & (W0 & W1 & W2 & WS) & ->). apply corner_solid. revert I. unfold solid_tris, corner_ph, tri_at. cbn [pverts pfaces map mkface fi0 fi1 fi2 vpos nth corner_verts List.In].
    intros [<-|[<-|[<-|[<-|[]]]]]; cbn [tv0 tv1 tv2] in *; unfold comb3, comb2; revert W0 W1 W2 WS; spec_unfold; intros; lra.
  - intros t x I H Z. exists t, 1. split; [exact I|]. split; [lra|]. split; [intros; ring|]. apply corner_solid in H. revert I Z. destruct x as [a b c]. destruct H as (H1 & H2 & H3 & H4).
    unfold solid_tris, corner_ph, tri_at, height, tri_normal. cbn [pverts pfaces map mkface fi0 fi1 fi2 vpos nth corner_verts List.In vx vy vz] in *.
    intros [<-|[<-|[<-|[<-|[]]]]] Z; cbn [tv0 tv1 tv2] in *.
    + assert (c = 0) by (revert Z; spec_unfold; intros; lra). exists (1 - a - b), b, a. split; [unfold weights3; lra|]. unfold comb3, comb2. apply vec3_ext; spec_unfold; lra.
    + assert (b = 0) by (revert Z; spec_unfold; intros; lra). exists (1 - a - c), a, c. split; [unfold weights3; lra|]. unfold comb3, comb2. apply vec3_ext; spec_unfold; lra.
    + assert (a = 0) by (revert Z; spec_unfold; intros; lra). exists (1 - b - c), c, b. split; [unfold weights3; lra|]. unfold comb3, comb2. apply vec3_ext; spec_unfold; lra.
    + assert (a + b + c = 1) by (revert Z; spec_unfold; intros; lra). exists a, b, c. split; [unfold weights3; lra|]. unfold comb3, comb2. apply vec3_ext; spec_unfold; lra.
Qed.
(** a pyramid on a square base made of two triangles: a point of the base lies on
    the surface, yet a positive distance is reported *)
Definition pyr_verts : list vec3 := [V3 0 0 0; V3 1 0 0; V3 1 1 0; V3 0 1 0; V3 0 0 1].
Definition pyr_ph : ph3 := PH pyr_verts [mkface pyr_verts 0 2 1; mkface pyr_verts 0 3 2; mkface pyr_verts 0 1 4; mkface pyr_verts 1 2 4; mkface pyr_verts 2 3 4; mkface pyr_verts 3 0 4].
Lemma pyr_refuted : sound_ph pyr_ph /\ oriented (ph_faces pyr_ph) /\ zPH3DVolume pyr_ph = Some (1 / 3) /\
  (exists t, List.In t (solid_tris pyr_ph) /\ in_triangle (tv0 t) (tv1 t) (tv2 t) (V3 (3 / 4) (1 / 4) 0)) /\
  exists d cp, zPH3DClosest pyr_ph (V3 (3 / 4) (1 / 4) 0) = Some (d, cp) /\ 0 < d.
Proof.
  assert (V : valid_ph pyr_ph) by (unfold valid_ph, indices_below, pyr_ph; cbn; repeat constructor).
  pose proof zTOL_small as TS.
  assert (S : sound_ph pyr_ph).
  { split; [exact V|split].
    - unfold fresh, pyr_ph; cbn [pfaces pverts]. repeat (constructor; [reflexivity|]). constructor.
    - unfold pyr_ph; cbn [pfaces pverts]. repeat constructor; cbn [fi0 fi1 fi2 mkface vpos nth pyr_verts].
      + apply not_negl_z. unfold tri_normal. spec_unfold. rewrite Rabs_left; lra.
      + apply not_negl_z. unfold tri_normal. spec_unfold. rewrite Rabs_left; lra.
      + apply not_negl_y. unfold tri_normal. spec_unfold. rewrite Rabs_left; lra.
      + apply not_negl_x. unfold tri_normal. spec_unfold. rewrite Rabs_right; lra.
      + apply not_negl_y. unfold tri_normal. spec_unfold. rewrite Rabs_right; lra.
      + apply not_negl_x. unfold tri_normal. spec_unfold. rewrite Rabs_left; lra. }
  split; [exact S|]. split; [|split; [|split]].
  - apply oriented_check. reflexivity.
  - rewrite ph_volume by exact V. f_equal. unfold vol0, mesh_vol, ph_faces, pyr_ph. cbn [pverts pfaces map rsum fold_right mkface fi0 fi1 fi2 corners vpos nth pyr_verts cone_vol].
    unfold vol6. spec_unfold. field.
  - eexists. split; [left; reflexivity|]. cbn [tri_at tv0 tv1 tv2 mkface fi0 fi1 fi2 vpos nth pyr_verts pverts pyr_ph]. exists (1 / 4), (1 / 4), (1 / 2). split; [unfold weights3; lra|].
    unfold comb3, comb2. apply vec3_ext; spec_unfold; lra.
  - destruct (sound_tris _ S) as (E & F). set (p := V3 (3 / 4) (1 / 4) 0). destruct (closest_scan _ _ p E F) as (b & B & R).
    set (t := tri_at pyr_verts (mkface pyr_verts 0 3 2)). assert (I : List.In t (solid_tris pyr_ph)) by (right; left; reflexivity).
    assert (C : created t) by (rewrite Forall_forall in F; apply F, I).
    destruct (signed_case t p C) as (d & cp & Et & (N1 & N2) & Ad & _ & _ & Pz).
    assert (Z : height t p = 0) by (unfold height, tri_normal, t, p; cbn [tri_at tv0 tv1 tv2 mkface fi0 fi1 fi2 vpos nth pyr_verts]; spec_unfold; field).
    specialize (Pz Z). assert (D : 0 < d).
    { destruct (Rle_lt_or_eq_dec _ _ Pz) as [L|L]; [exact L|exfalso]. subst d. rewrite Rabs_R0 in Ad. symmetry in Ad. apply dist_zero_iff in Ad. rewrite <- Ad in N1.
      destruct N1 as (s0 & s1 & s2 & (W0 & W1 & W2 & WS) & EP). unfold p, t, comb3, comb2 in EP. cbn [tri_at tv0 tv1 tv2 mkface fi0 fi1 fi2 vpos nth pyr_verts] in EP.
      pose proof (f_equal vx EP) as X. pose proof (f_equal vy EP) as Y. clear - X Y W0 W1 W2 WS. revert X Y W0 W1 W2 WS. spec_unfold. intros. lra. }
    destruct b as [[d' cp']|]; [exists d', cp'; split; [exact R|apply B]|]. exfalso. specialize (B t d cp I Et). lra.
Qed.
Lemma corner_valid : valid_ph corner_ph /\ closed (ph_faces corner_ph).
Proof. destruct corner_sound as ((V & _) & O & _). split; [exact V|]. apply O. Qed.
Lemma aabb_refuted : exists ph, valid_ph ph /\ (forall v, List.In v (pverts ph) -> 1 <= vx v) /\ exists x, in_box (zPH3DAABB ph) x /\ vx x = 0.
Proof.
  exists (PH [V3 1 0 0; V3 2 0 0; V3 1 1 0] []). split; [unfold valid_ph, indices_below; cbn; repeat constructor|].
  split; [cbn; intros v [<-|[<-|[<-|[]]]]; cbn; lra|]. exists v3zero. split; [apply ph_aabb|reflexivity].
Qed.
Lemma unit_axis_frame : 3 * zTOL <= norm (vsub (V3 0 0 1) (V3 0 0 0)) /\ isometry (cols3 (V3 1 0 0) (V3 0 1 0) (V3 0 0 1)) /\
  vscale (norm (vsub (V3 0 0 1) (V3 0 0 0))) (V3 0 0 1) = vsub (V3 0 0 1) (V3 0 0 0) /\ ~ negligible (vsub (V3 0 0 1) (V3 0 0 0)).
Proof.
  assert (N : norm (vsub (V3 0 0 1) (V3 0 0 0)) = 1) by (apply norm_unit; spec_unfold; ring).
  rewrite N. pose proof zTOL_small. split; [lra|]. split; [unfold isometry; mring|]. split; [vring|apply unit_axis_ok].
Qed.

(** Proofs about calls with overlapping arguments. *)
From Verif Require Import Base Spec SpecFrame ModelAlias FactsAlg.
From Coq Require Import Lra Psatz Lia Arith.
Open Scope R_scope.

Lemma upd_eq s a x b : b = a -> upd s a x b = x.
Proof. intros ->. unfold upd. rewrite Nat.eqb_refl. reflexivity. Qed.
Lemma upd_neq s a x b : b <> a -> upd s a x b = s b.
Proof. intros H. unfold upd. apply Nat.eqb_neq in H. rewrite H. reflexivity. Qed.

Ltac canon := rewrite ?Nat.add_0_r, <- ?Nat.add_assoc in *; cbn [Nat.add Nat.mul] in *.
Lemma asg_eq p i e s b : b = (p + i)%nat -> asg p i e s b = e s.
Proof. apply upd_eq. Qed.
Lemma asg_neq p i e s b : b <> (p + i)%nat -> asg p i e s b = s b.
Proof. apply upd_neq. Qed.
(** reads are resolved from the last write backwards, so that no expression is
    evaluated before it is needed *)
Ltac rdupd := repeat (match goal with
  | |- context [asg ?p ?i ?e ?s ?b] => first [rewrite (asg_eq p i e s b) by lia | rewrite (asg_neq p i e s b) by lia]
  end; cbv beta).
Ltac run := cbv beta iota zeta delta [sqn create2 create3 create22 put_m2 put_m3 c_ swap] in *; canon; rdupd; canon.
Ltac openv := cbv beta iota zeta delta [rd2 rd3 rdm2 rdm3 rdc2 rdq lcols lmul ltmul tcol c_
   mvec mmul mtr cross cols3 col0 col1 col2 row0 row1 row2 dot mvec2 mmul2 mtr2 rot2 rows2 vadd2 vsub2 vscale2 vadd vscale
   vx vy vz x2 y2 dxx dxy dyx dyy cxx cxy cxz cyx cyy cyz czx czy czz cpos2 cang2 qw qx qy qz] in *; canon.

Ltac frame := let a := fresh "a" in let H := fresh in intros a H; run; reflexivity.

(** ** safe for every overlap *)
Lemma al_outer v1 v2 v s : let s' := p_zVec3DOuterProd v1 v2 v s in
  rd3 s' v = cross (rd3 s v1) (rd3 s v2) /\ only v 3 s s'.
Proof. intros s'; subst s'; unfold p_zVec3DOuterProd. split; [|frame]. unfold rd3 at 1. run. openv. reflexivity. Qed.
Lemma al_mulv m v mv s : let s' := p_zMulMat3DVec3D m v mv s in
  rd3 s' mv = mvec (rdm3 s m) (rd3 s v) /\ only mv 3 s s'.
Proof. intros s'; subst s'; unfold p_zMulMat3DVec3D. split; [|frame]. unfold rd3 at 1. run. openv. reflexivity. Qed.
Lemma al_multv m v mv s : let s' := p_zMulMat3DTVec3D m v mv s in
  rd3 s' mv = mvec (mtr (rdm3 s m)) (rd3 s v) /\ only mv 3 s s'.
Proof. intros s'; subst s'; unfold p_zMulMat3DTVec3D. split; [|frame]. unfold rd3 at 1. run. openv. reflexivity. Qed.
Lemma put_m3_rd m x s : rdm3 (put_m3 m x s) m = x /\ only m 9 s (put_m3 m x s).
Proof. split; [|frame]. destruct x. unfold rdm3. run. reflexivity. Qed.
Lemma put_m2_rd m x s : rdm2 (put_m2 m x s) m = x /\ only m 4 s (put_m2 m x s).
Proof. split; [|frame]. destruct x. unfold rdm2. run. reflexivity. Qed.
Lemma al_mulm m1 m2 m s : let s' := p_zMulMat3DMat3D m1 m2 m s in
  rdm3 s' m = mmul (rdm3 s m1) (rdm3 s m2) /\ only m 9 s s'.
Proof.
  intros s'; subst s'; unfold p_zMulMat3DMat3D; cbv zeta.
  destruct (put_m3_rd m (lcols (lmul m1 m2 s) (lmul m1 (m2 + 3) s) (lmul m1 (m2 + 6) s)) s) as [E F].
  split; [rewrite E|exact F]. openv. reflexivity.
Qed.
Lemma al_multm m1 m2 m s : let s' := p_zMulMat3DTMat3D m1 m2 m s in
  rdm3 s' m = mmul (mtr (rdm3 s m1)) (rdm3 s m2) /\ only m 9 s s'.
Proof.
  intros s'; subst s'; unfold p_zMulMat3DTMat3D; cbv zeta.
  destruct (put_m3_rd m (lcols (ltmul m1 m2 s) (ltmul m1 (m2 + 3) s) (ltmul m1 (m2 + 6) s)) s) as [E F].
  split; [rewrite E|exact F]. openv. reflexivity.
Qed.
Lemma al_mulmt m1 m2 m s : let s' := p_zMulMat3DMat3DT m1 m2 m s in
  rdm3 s' m = mmul (rdm3 s m1) (mtr (rdm3 s m2)) /\ only m 9 s s'.
Proof.
  intros s'; subst s'; unfold p_zMulMat3DMat3DT; cbv zeta.
  destruct (put_m3_rd m (lcols (tcol m1 m2 0 s) (tcol m1 m2 1 s) (tcol m1 m2 2 s)) s) as [E F].
  split; [rewrite E|exact F]. openv. reflexivity.
Qed.
Lemma al_mulm2 m1 m2 m s : let s' := p_zMulMat2DMat2D m1 m2 m s in
  rdm2 s' m = mmul2 (rdm2 s m1) (rdm2 s m2) /\ only m 4 s s'.
Proof.
  intros s'; subst s'; unfold p_zMulMat2DMat2D; cbv zeta.
  match goal with |- rdm2 (put_m2 m ?x s) m = _ /\ _ => destruct (put_m2_rd m x s) as [E F] end.
  split; [rewrite E|exact F]. openv. reflexivity.
Qed.
Lemma al_drc2 m v s :
  rd2 (p_zMulMat2DVec2DDRC m v s) v = mvec2 (rdm2 s m) (rd2 s v) /\
  rd2 (p_zMulMat2DTVec2DDRC m v s) v = mvec2 (mtr2 (rdm2 s m)) (rd2 s v).
Proof. unfold p_zMulMat2DVec2DDRC, p_zMulMat2DTVec2DDRC. split; unfold rd2 at 1; run; openv; reflexivity. Qed.
(** in place or apart *)
Lemma al_t3 m tm s : tm = m \/ apart m 9 tm 9 ->
  rdm3 (p_zMat3DT m tm s) tm = mtr (rdm3 s m) /\ only tm 9 s (p_zMat3DT m tm s).
Proof.
  unfold apart, p_zMat3DT. intros H. destruct (Nat.eqb_spec tm m) as [->|N].
  - unfold p_zMat3DTDRC. split; [|frame]. unfold rdm3 at 1. run. openv. reflexivity.
  - destruct H as [?|H]; [congruence|]. unfold p_mac_Mat3DT. split; [|destruct H; frame].
    unfold rdm3 at 1. run. openv. reflexivity.
Qed.
Lemma al_add v1 v2 v s : (v = v1 \/ apart v1 3 v 3) -> (v = v2 \/ apart v2 3 v 3) ->
  rd3 (p_zVec3DAdd v1 v2 v s) v = vadd (rd3 s v1) (rd3 s v2).
Proof.
  unfold apart, p_zVec3DAdd. intros H1 H2. unfold rd3 at 1. run. openv.
  f_equal; destruct H1 as [<-|H1], H2 as [<-|H2]; rdupd; reflexivity.
Qed.
Lemma al_cat v1 k v2 v s : (v = v1 \/ apart v1 3 v 3) -> (v = v2 \/ apart v2 3 v 3) ->
  rd3 (p_zVec3DCat v1 k v2 v s) v = vadd (rd3 s v1) (vscale k (rd3 s v2)).
Proof.
  unfold apart, p_zVec3DCat. intros H1 H2. unfold rd3 at 1. run. openv.
  f_equal; destruct H1 as [<-|H1], H2 as [<-|H2]; rdupd; reflexivity.
Qed.

(** ** not safe in place: exact condition *)
Lemma V2_inj a b c d : V2 a b = V2 c d <-> a = c /\ b = d.
Proof. split; [injection 1; auto|intros [-> ->]; reflexivity]. Qed.
Lemma V3_inj a b c d e f : V3 a b c = V3 d e f <-> a = d /\ b = e /\ c = f.
Proof. split; [injection 1; auto|intros (-> & -> & ->); reflexivity]. Qed.
Lemma M2_inj a b c d a' b' c' d' : M2 a b c d = M2 a' b' c' d' <-> a = a' /\ b = b' /\ c = c' /\ d = d'.
Proof. split; [injection 1; auto|intros (-> & -> & -> & ->); reflexivity]. Qed.
Lemma Rmult_0_iff a b : a * b = 0 <-> a = 0 \/ b = 0.
Proof. split; [apply Rmult_integral|intros [-> | ->]; ring]. Qed.
Ltac eqlra := repeat split; intros; repeat match goal with H : _ /\ _ |- _ => destruct H end; repeat split; try lra.

Lemma ip_rot2 v t s : rd2 (p_zVec2DRot v t v s) v = mvec2 (rot2 t) (rd2 s v) <->
  sin t = 0 \/ x2 (mvec2 (rot2 t) (rd2 s v)) = x2 (rd2 s v).
Proof.
  unfold p_zVec2DRot. unfold rd2 at 1. run. openv. rewrite V2_inj.
  set (x := s v). set (y := s (v + 1)%nat).
  assert (E : forall A, sin t = 0 \/ A = x <-> sin t * (A - x) = 0).
  { intros A. rewrite Rmult_0_iff. split; intros [H|H]; auto; right; lra. }
  rewrite E. eqlra.
Qed.
Lemma ip_rot90cw v s : rd2 (p_zVec2DRot90CW v v s) v = V2 (y2 (rd2 s v)) (- x2 (rd2 s v)) <-> x2 (rd2 s v) = y2 (rd2 s v).
Proof. unfold p_zVec2DRot90CW. unfold rd2 at 1. run. openv. rewrite V2_inj. eqlra. Qed.
Lemma ip_rot90ccw v s : rd2 (p_zVec2DRot90CCW v v s) v = V2 (- y2 (rd2 s v)) (x2 (rd2 s v)) <-> x2 (rd2 s v) = - y2 (rd2 s v).
Proof. unfold p_zVec2DRot90CCW. unfold rd2 at 1. run. openv. rewrite V2_inj. eqlra. Qed.
Lemma ip_interdiv1 v1 v2 k s : apart v1 2 v2 2 ->
  (rd2 (p_zVec2DInterDiv v1 v2 k v1 s) v1 = vadd2 (rd2 s v1) (vscale2 k (vsub2 (rd2 s v2) (rd2 s v1))) <->
   rd2 s v2 = vscale2 2 (rd2 s v1)).
Proof.
  unfold apart, p_zVec2DInterDiv. intros H. unfold rd2 at 1. run. openv. rewrite !V2_inj. eqlra.
Qed.
Lemma ip_interdiv2 v1 v2 k s : apart v1 2 v2 2 ->
  rd2 (p_zVec2DInterDiv v1 v2 k v2 s) v2 = vadd2 (rd2 s v1) (vscale2 k (vsub2 (rd2 s v2) (rd2 s v1))).
Proof. unfold apart, p_zVec2DInterDiv. intros H. unfold rd2 at 1. run. openv. reflexivity. Qed.
Lemma ip_mulv2 m v s : apart m 4 v 2 ->
  (rd2 (p_zMulMat2DVec2D m v v s) v = mvec2 (rdm2 s m) (rd2 s v) <->
   dxy (rdm2 s m) = 0 \/ x2 (mvec2 (rdm2 s m) (rd2 s v)) = x2 (rd2 s v)).
Proof.
  unfold apart, p_zMulMat2DVec2D. intros H. unfold rd2 at 1. run. openv. rewrite V2_inj.
  assert (E : forall A x, s (m + 1)%nat = 0 \/ A = x <-> s (m + 1)%nat * (A - x) = 0).
  { intros A x. rewrite Rmult_0_iff. split; intros [K|K]; auto; right; lra. }
  rewrite E. eqlra.
Qed.
Lemma ip_multv2 m v s : apart m 4 v 2 ->
  (rd2 (p_zMulMat2DTVec2D m v v s) v = mvec2 (mtr2 (rdm2 s m)) (rd2 s v) <->
   dyx (rdm2 s m) = 0 \/ x2 (mvec2 (mtr2 (rdm2 s m)) (rd2 s v)) = x2 (rd2 s v)).
Proof.
  unfold apart, p_zMulMat2DTVec2D. intros H. unfold rd2 at 1. run. openv. rewrite V2_inj.
  assert (E : forall A x, s (m + 2)%nat = 0 \/ A = x <-> s (m + 2)%nat * (A - x) = 0).
  { intros A x. rewrite Rmult_0_iff. split; intros [K|K]; auto; right; lra. }
  rewrite E. eqlra.
Qed.
Lemma ip_t2 m s : rdm2 (p_zMat2DT m m s) m = mtr2 (rdm2 s m) <-> mtr2 (rdm2 s m) = rdm2 s m.
Proof. unfold p_zMat2DT. unfold rdm2 at 1. run. openv. rewrite !M2_inj. eqlra. Qed.
Lemma ip_adj2 m s :
  rdm2 (p_zMat2DAdj m m s) m = M2 (s (m + 3)%nat) (- s (m + 1)%nat) (- s (m + 2)%nat) (s m) <-> s m = s (m + 3)%nat.
Proof. unfold p_zMat2DAdj. unfold rdm2 at 1. run. rewrite !M2_inj. eqlra. Qed.
Lemma ip_rotm2 m t s : rdm2 (p_zMat2DRot m t m s) m = mmul2 (rot2 t) (rdm2 s m) <->
  sin t = 0 \/ (dxx (mmul2 (rot2 t) (rdm2 s m)) = dxx (rdm2 s m) /\ dyx (mmul2 (rot2 t) (rdm2 s m)) = dyx (rdm2 s m)).
Proof.
  unfold p_zMat2DRot. unfold rdm2 at 1. run. openv. rewrite M2_inj.
  assert (E : forall A x B y, sin t = 0 \/ (A = x /\ B = y) <-> sin t * (A - x) = 0 /\ sin t * (B - y) = 0).
  { intros A x B y. rewrite !Rmult_0_iff. split.
    - intros [K|[K L]]; [auto|]. split; right; lra.
    - intros [[K|K] [L|L]]; auto. right; lra. }
  rewrite E. eqlra.
Qed.
(** the library's own in-place cascade doubles the displacement *)
Lemma ip_cascade c dc s : apart c 3 dc 3 ->
  rdc2 (p_zCoord2DCascadeDRC c dc s) c =
    C2 (vscale2 2 (mvec2 (rot2 (cang2 (rdc2 s c))) (cpos2 (rdc2 s dc)))) (cang2 (rdc2 s c) + cang2 (rdc2 s dc)).
Proof.
  unfold apart, p_zCoord2DCascadeDRC, p_zCoord2DCascade, p_zVec2DRot. intros H. unfold rdc2 at 1. unfold rd2 at 1. run. openv.
  f_equal. apply vec2_ext; cbn; ring.
Qed.
Lemma C2_inj a b c d : C2 a b = C2 c d <-> a = c /\ b = d.
Proof. split; [injection 1; auto|intros [-> ->]; reflexivity]. Qed.
Lemma ip_cascade_iff c dc s : apart c 3 dc 3 ->
  (rdc2 (p_zCoord2DCascadeDRC c dc s) c =
     C2 (vadd2 (mvec2 (rot2 (cang2 (rdc2 s c))) (cpos2 (rdc2 s dc))) (cpos2 (rdc2 s c))) (cang2 (rdc2 s c) + cang2 (rdc2 s dc)) <->
   cpos2 (rdc2 s c) = mvec2 (rot2 (cang2 (rdc2 s c))) (cpos2 (rdc2 s dc))).
Proof.
  intros H. rewrite (ip_cascade _ _ _ H). rewrite C2_inj. openv. rewrite !V2_inj. eqlra.
Qed.
Lemma apart_cascade src xf dest s : apart src 3 dest 3 -> apart xf 3 dest 3 ->
  rdc2 (p_zCoord2DCascade src xf dest s) dest =
     C2 (vadd2 (mvec2 (rot2 (cang2 (rdc2 s src))) (cpos2 (rdc2 s xf))) (cpos2 (rdc2 s src))) (cang2 (rdc2 s src) + cang2 (rdc2 s xf)).
Proof.
  unfold apart, p_zCoord2DCascade, p_zVec2DRot. intros H1 H2. unfold rdc2 at 1. unfold rd2 at 1. run. openv.
  f_equal. apply vec2_ext; cbn; ring.
Qed.
(** quaternion rotation of a vector in place *)
Lemma al_mul v k s : rd3 (p_zVec3DMul v k v s) v = vscale k (rd3 s v) /\ only v 3 s (p_zVec3DMul v k v s).
Proof. unfold p_zVec3DMul. split; [|frame]. unfold rd3 at 1. run. openv. reflexivity. Qed.
Lemma al_cat_only v1 k v2 v s : only v 3 s (p_zVec3DCat v1 k v2 v s).
Proof. unfold p_zVec3DCat. frame. Qed.
Lemma rdq_only s s' v ep : only v 3 s s' -> apart ep 4 v 3 -> rdq s' ep = rdq s ep.
Proof. unfold only, apart, rdq. intros H K. rewrite !H by lia. reflexivity. Qed.
Lemma rd3_only s s' v u : only v 3 s s' -> apart u 3 v 3 -> rd3 s' u = rd3 s u.
Proof. unfold only, apart, rd3. intros H K. rewrite !H by lia. reflexivity. Qed.
Definition qv (q : quat) : vec3 := V3 (qx q) (qy q) (qz q).
Lemma rd_qv s ep : rd3 s (ep + 1) = qv (rdq s ep).
Proof. unfold rd3, qv, rdq; cbn [qx qy qz]. canon. reflexivity. Qed.
(** the four statements of zEPRotVec3D, state by state *)
Lemma ep_steps ep v rv s : exists s1 s2 s3 s4,
  s1 = p_zVec3DOuterProd (ep + 1) v rv s /\
  s2 = p_zVec3DMul rv (2 * qw (rdq s1 ep)) rv s1 /\
  s3 = p_zVec3DCat rv (qw (rdq s2 ep) * qw (rdq s2 ep) - dot (qv (rdq s2 ep)) (qv (rdq s2 ep))) v rv s2 /\
  s4 = p_zVec3DCat rv (2 * dot (qv (rdq s3 ep)) (rd3 s3 v)) (ep + 1) rv s3 /\
  p_zEPRotVec3D ep v rv s = s4.
Proof.
  unfold p_zEPRotVec3D. do 4 eexists. repeat (split; [reflexivity|]).
  unfold sqn, rdq, rd3, qv, dot, c_; cbn [qw qx qy qz vx vy vz]. canon. reflexivity.
Qed.
Lemma ip_ep ep v s : apart ep 4 v 3 ->
  let q := rdq s ep in let e := V3 (qx q) (qy q) (qz q) in
  rd3 (p_zEPRotVec3D ep v v s) v =
    vscale (2 * qw q * (1 + qw q * qw q - dot e e)) (cross e (rd3 s v)).
Proof.
  intros H. cbv zeta. fold (qv (rdq s ep)). destruct (ep_steps ep v v s) as (s1 & s2 & s3 & s4 & E1 & E2 & E3 & E4 & ->).
  destruct (al_outer (ep + 1) v v s) as [V1 O1]. rewrite <- E1 in *.
  pose proof (rdq_only _ _ _ _ O1 H) as Q1.
  destruct (al_mul v (2 * qw (rdq s1 ep)) s1) as [V2' O2]. rewrite <- E2 in *.
  pose proof (rdq_only _ _ _ _ O2 H) as Q2.
  pose proof (al_cat v (qw (rdq s2 ep) * qw (rdq s2 ep) - dot (qv (rdq s2 ep)) (qv (rdq s2 ep))) v v s2 (or_introl eq_refl) (or_introl eq_refl)) as V3'.
  pose proof (al_cat_only v (qw (rdq s2 ep) * qw (rdq s2 ep) - dot (qv (rdq s2 ep)) (qv (rdq s2 ep))) v v s2) as O3.
  rewrite <- E3 in *. pose proof (rdq_only _ _ _ _ O3 H) as Q3.
  assert (Ha : v = (ep + 1)%nat \/ apart (ep + 1) 3 v 3) by (unfold apart in *; lia).
  pose proof (al_cat v (2 * dot (qv (rdq s3 ep)) (rd3 s3 v)) (ep + 1) v s3 (or_introl eq_refl) Ha) as V4.
  rewrite <- E4 in V4. rewrite rd_qv in V4, V1.
  rewrite Q3, Q2, Q1 in *. rewrite V4, V3', V2', V1.
  generalize (qv (rdq s ep)) (qw (rdq s ep)) (rd3 s v). intros e w u.
  destruct e as [ex ey ez], u as [ux uy uz]. unfold dot, vscale, vadd, cross; cbn [vx vy vz]. apply vec3_ext; cbn [vx vy vz]; ring.
Qed.
Lemma apart_ep ep v rv s : apart ep 4 rv 3 -> apart v 3 rv 3 ->
  rd3 (p_zEPRotVec3D ep v rv s) rv = qrotv (rdq s ep) (rd3 s v).
Proof.
  intros H K. destruct (ep_steps ep v rv s) as (s1 & s2 & s3 & s4 & E1 & E2 & E3 & E4 & ->).
  destruct (al_outer (ep + 1) v rv s) as [V1 O1]. rewrite <- E1 in *.
  pose proof (rdq_only _ _ _ _ O1 H) as Q1. pose proof (rd3_only _ _ _ _ O1 K) as P1.
  destruct (al_mul rv (2 * qw (rdq s1 ep)) s1) as [V2' O2]. rewrite <- E2 in *.
  pose proof (rdq_only _ _ _ _ O2 H) as Q2. pose proof (rd3_only _ _ _ _ O2 K) as P2.
  pose proof (al_cat rv (qw (rdq s2 ep) * qw (rdq s2 ep) - dot (qv (rdq s2 ep)) (qv (rdq s2 ep))) v rv s2 (or_introl eq_refl) (or_intror K)) as V3'.
  pose proof (al_cat_only rv (qw (rdq s2 ep) * qw (rdq s2 ep) - dot (qv (rdq s2 ep)) (qv (rdq s2 ep))) v rv s2) as O3.
  rewrite <- E3 in *. pose proof (rdq_only _ _ _ _ O3 H) as Q3. pose proof (rd3_only _ _ _ _ O3 K) as P3.
  assert (Ha : rv = (ep + 1)%nat \/ apart (ep + 1) 3 rv 3) by (unfold apart in *; lia).
  pose proof (al_cat rv (2 * dot (qv (rdq s3 ep)) (rd3 s3 v)) (ep + 1) rv s3 (or_introl eq_refl) Ha) as V4.
  rewrite <- E4 in V4. rewrite rd_qv in V4, V1.
  rewrite P3, P2, P1, Q3, Q2, Q1 in *. rewrite V4, V3', V2', V1. unfold qrotv. fold (qv (rdq s ep)).
  generalize (qv (rdq s ep)) (qw (rdq s ep)) (rd3 s v). intros e w u.
  destruct e as [ex ey ez], u as [ux uy uz]. unfold dot, vscale, vadd, cross; cbn [vx vy vz]. apply vec3_ext; cbn [vx vy vz]; ring.
Qed.
Lemma dot_e (e u k : vec3) a b c d :
  dot e (vscale a (cross e u)) = 0 /\
  dot e (vadd (vadd (vscale b (cross e u)) (vscale c u)) (vscale d e)) = c * dot e u + d * dot e e /\
  dot u (vscale a (cross e u)) = 0 /\
  dot u (vadd (vadd (vscale b (cross e u)) (vscale c u)) (vscale d e)) = c * dot u u + d * dot e u.
Proof. destruct e as [ex ey ez], u as [ux uy uz]. unfold dot, vscale, vadd, cross; cbn [vx vy vz]. repeat split; ring. Qed.
Lemma ep_core (e u : vec3) w : dot e e = 1 - w * w ->
  (vscale (4 * w * w * w) (cross e u) =
     vadd (vadd (vscale (2 * w) (cross e u)) (vscale (2 * w * w - 1) u)) (vscale (2 * dot e u) e) <->
   u = v3zero \/ (dot e u = 0 /\ w * w = 1 / 2)).
Proof.
  intros Hd. split.
  - intros E.
    destruct (dot_e e u u (4 * w * w * w) (2 * w) (2 * w * w - 1) (2 * dot e u)) as (A & B & C & D).
    rewrite E, B in A. rewrite E, D in C. rewrite Hd in A.
    assert (E1 : dot e u = 0) by lra. rewrite E1 in C.
    assert (E2 : (2 * w * w - 1) * dot u u = 0) by lra.
    apply Rmult_integral in E2. destruct E2 as [E2|E2]; [right; split; [exact E1|lra]|left].
    destruct u as [ux uy uz]. unfold dot in E2; cbn [vx vy vz] in E2. unfold v3zero.
    f_equal; apply Rsqr_0_uniq; unfold Rsqr; nra.
  - intros [E|[E1 E2]].
    + rewrite E. unfold v3zero, dot, vscale, vadd, cross; cbn [vx vy vz]. apply vec3_ext; cbn [vx vy vz]; ring.
    + rewrite E1. replace (4 * w * w * w) with (2 * w) by (replace (4 * w * w * w) with (4 * w * (w * w)) by ring; rewrite E2; lra).
      replace (2 * w * w - 1) with 0 by lra. generalize (cross e u). intros k.
      unfold vscale, vadd; cbn [vx vy vz]. apply vec3_ext; cbn [vx vy vz]; ring.
Qed.
(** for a unit quaternion the in-place result is right exactly for the zero
    vector and for quarter turns of vectors orthogonal to the axis *)
Lemma ip_ep_iff ep v s : apart ep 4 v 3 ->
  let q := rdq s ep in let e := V3 (qx q) (qy q) (qz q) in
  qunit q ->
  (rd3 (p_zEPRotVec3D ep v v s) v = qrotv q (rd3 s v) <->
   rd3 s v = v3zero \/ (dot e (rd3 s v) = 0 /\ qw q * qw q = 1 / 2)).
Proof.
  intros Ha q e Hq. pose proof (ip_ep ep v s Ha) as HH. cbv zeta in HH. fold q in HH. rewrite HH. clear HH.
  unfold qrotv. fold e.
  assert (Hd : dot e e = 1 - qw q * qw q).
  { unfold qunit, qnorm2 in Hq. unfold e, dot; cbn [vx vy vz]. lra. }
  rewrite !Hd.
  replace (2 * qw q * (1 + qw q * qw q - (1 - qw q * qw q))) with (4 * qw q * qw q * qw q) by ring.
  replace (qw q * qw q - (1 - qw q * qw q)) with (2 * qw q * qw q - 1) by ring.
  apply ep_core, Hd.
Qed.
Lemma ip_zyxvel v sa ca sb cb s :
  let z := rd3 s v in
  rd3 (p_zZYXVelToAngVelSC v sa ca sb cb v s) v =
    V3 (- sa * vy z + ca * cb * vz z) (ca * vy z + sa * cb * vz z) (vx z - sb * vz z) <->
  - sa * vy z + ca * cb * vz z = vx z.
Proof.
  cbv zeta. unfold p_zZYXVelToAngVelSC. unfold rd3 at 1. run. openv. rewrite V3_inj. 
  set (x' := - sa * _ + _). set (y' := ca * s (v + 1)%nat + _). eqlra.
Qed.
Lemma ip_rotrpy m t s :
  let R := rdm3 s m in
  (rdm3 (p_zMat3DRotRollDRC m t s) m = mmul (rotx t) R /\
   rdm3 (p_zMat3DRotPitchDRC m t s) m = mmul (roty t) R /\
   rdm3 (p_zMat3DRotYawDRC m t s) m = mmul (rotz t) R).
Proof.
  cbv zeta. unfold p_zMat3DRotRollDRC, p_zMat3DRotPitchDRC, p_zMat3DRotYawDRC, p_RotRPYSCDRC.
  repeat split; unfold rdm3 at 1; run; unfold rotx, roty, rotz, rows3; openv; apply mat3_ext; cbn [cxx cxy cxz cyx cyy cyz czx czy czz]; ring.
Qed.
Lemma M3_inj a b c d e f g h i a' b' c' d' e' f' g' h' i' :
  M3 a b c d e f g h i = M3 a' b' c' d' e' f' g' h' i' <->
  a = a' /\ b = b' /\ c = c' /\ d = d' /\ e = e' /\ f = f' /\ g = g' /\ h = h' /\ i = i'.
Proof. split; [injection 1; intuition auto|intros (-> & -> & -> & -> & -> & -> & -> & -> & ->); reflexivity]. Qed.
Lemma sin_or3 t A a B b C c : sin t = 0 \/ (A = a /\ B = b /\ C = c) <->
  sin t * (A - a) = 0 /\ sin t * (B - b) = 0 /\ sin t * (C - c) = 0.
Proof.
  rewrite !Rmult_0_iff. split.
  - intros [K|(K & L & M)]; [auto|]. repeat split; right; lra.
  - intros ([K|K] & [L|L] & [M|M]); auto. right; lra.
Qed.
Lemma ip_roll m t s : let R := rdm3 s m in
  rdm3 (p_zMat3DRotRoll m t m s) m = mmul (rotx t) R <->
  sin t = 0 \/ (cyy (mmul (rotx t) R) = cyy R /\ czy (mmul (rotx t) R) = czy R /\ cxy (mmul (rotx t) R) = cxy R).
Proof.
  cbv zeta. unfold p_zMat3DRotRoll, p_RotRPYSC. unfold rdm3 at 1; run; unfold rotx, rows3; openv.
  rewrite M3_inj, sin_or3. eqlra.
Qed.
Lemma ip_pitch m t s : let R := rdm3 s m in
  rdm3 (p_zMat3DRotPitch m t m s) m = mmul (roty t) R <->
  sin t = 0 \/ (czz (mmul (roty t) R) = czz R /\ cxz (mmul (roty t) R) = cxz R /\ cyz (mmul (roty t) R) = cyz R).
Proof.
  cbv zeta. unfold p_zMat3DRotPitch, p_RotRPYSC. unfold rdm3 at 1; run; unfold roty, rows3; openv.
  rewrite M3_inj, sin_or3. eqlra.
Qed.
Lemma ip_yaw m t s : let R := rdm3 s m in
  rdm3 (p_zMat3DRotYaw m t m s) m = mmul (rotz t) R <->
  sin t = 0 \/ (cxx (mmul (rotz t) R) = cxx R /\ cyx (mmul (rotz t) R) = cyx R /\ czx (mmul (rotz t) R) = czx R).
Proof.
  cbv zeta. unfold p_zMat3DRotYaw, p_RotRPYSC. unfold rdm3 at 1; run; unfold rotz, rows3; openv.
  rewrite M3_inj, sin_or3. eqlra.
Qed.
(** the in-place transpose macro copies one triangle over the other *)
Definition symcopy (m : mat3) : mat3 := M3 (cxx m) (cyx m) (czx m) (cyx m) (cyy m) (czy m) (czx m) (czy m) (czz m).
Lemma mac_t_in m s : rdm3 (p_mac_Mat3DT m m s) m = symcopy (rdm3 s m) /\ only m 9 s (p_mac_Mat3DT m m s).
Proof. unfold p_mac_Mat3DT, symcopy. split; [|frame]. unfold rdm3 at 1. run. openv. reflexivity. Qed.
Lemma mac_t_ap m tm s : apart m 9 tm 9 ->
  rdm3 (p_mac_Mat3DT m tm s) tm = mtr (rdm3 s m) /\ only tm 9 s (p_mac_Mat3DT m tm s).
Proof.
  unfold apart, p_mac_Mat3DT. intros H. split; [|frame]. unfold rdm3 at 1. run. openv. reflexivity.
Qed.
Lemma rdm3_only s s' v u : only v 9 s s' -> apart u 9 v 9 -> rdm3 s' u = rdm3 s u.
Proof. unfold only, apart, rdm3. intros H K. rewrite !H by lia. reflexivity. Qed.
Lemma symcopy_iff m : symcopy m = mtr m <-> mtr m = m.
Proof. destruct m. unfold symcopy. openv. rewrite !M3_inj. split; intros (A & B & C & D & E & F & G & H & I); repeat split; congruence. Qed.
Lemma t6_blocks m s : let s' := p_zMat6DT m m s in
  rdm3 s' m = symcopy (rdm3 s m) /\ rdm3 s' (m + 9) = rdm3 s (m + 9) /\
  rdm3 s' (m + 18) = mtr (rdm3 s (m + 9)) /\ rdm3 s' (m + 27) = symcopy (rdm3 s (m + 27)).
Proof.
  cbv zeta. unfold p_zMat6DT, sqn.
  destruct (mac_t_in m s) as [A1 O1]. set (s1 := p_mac_Mat3DT m m s) in *.
  destruct (mac_t_ap (m + 9) (m + 18) s1) as [A2 O2]; [unfold apart; lia|]. set (s2 := p_mac_Mat3DT (m + 9) (m + 18) s1) in *.
  destruct (mac_t_ap (m + 18) (m + 9) s2) as [A3 O3]; [unfold apart; lia|]. set (s3 := p_mac_Mat3DT (m + 18) (m + 9) s2) in *.
  destruct (mac_t_in (m + 27) s3) as [A4 O4]. set (s4 := p_mac_Mat3DT (m + 27) (m + 27) s3) in *.
  assert (T : forall x, mtr (mtr x) = x) by (intros x; destruct x; reflexivity).
  repeat apply conj.
  - rewrite (rdm3_only _ _ _ _ O4), (rdm3_only _ _ _ _ O3), (rdm3_only _ _ _ _ O2) by (unfold apart; lia). exact A1.
  - rewrite (rdm3_only _ _ _ _ O4) by (unfold apart; lia). rewrite A3, A2, T. apply (rdm3_only _ _ _ _ O1). unfold apart; lia.
  - rewrite (rdm3_only _ _ _ _ O4), (rdm3_only _ _ _ _ O3) by (unfold apart; lia). rewrite A2. f_equal.
    apply (rdm3_only _ _ _ _ O1). unfold apart; lia.
  - rewrite A4. f_equal. rewrite (rdm3_only _ _ _ _ O3), (rdm3_only _ _ _ _ O2) by (unfold apart; lia).
    apply (rdm3_only _ _ _ _ O1). unfold apart; lia.
Qed.
Lemma ip_t6 m s :
  let s' := p_zMat6DT m m s in
  (rdm3 s' m = mtr (rdm3 s m) /\ rdm3 s' (m + 9) = mtr (rdm3 s (m + 18)) /\
   rdm3 s' (m + 18) = mtr (rdm3 s (m + 9)) /\ rdm3 s' (m + 27) = mtr (rdm3 s (m + 27))) <->
  (mtr (rdm3 s m) = rdm3 s m /\ mtr (rdm3 s (m + 9)) = rdm3 s (m + 18) /\ mtr (rdm3 s (m + 27)) = rdm3 s (m + 27)).
Proof.
  intros s'. destruct (t6_blocks m s) as (A & B & C & D). fold s' in A, B, C, D. rewrite A, B, C, D, !symcopy_iff.
  assert (T : forall x, mtr (mtr x) = x) by (intros x; destruct x; reflexivity).
  split.
  - intros (H1 & H2 & _ & H4). split; [exact H1|]. split; [|exact H4]. rewrite H2. apply T.
  - intros (H1 & H2 & H4). split; [exact H1|]. split; [|split; [reflexivity|exact H4]]. rewrite <- H2. symmetry; apply T.
Qed.
Lemma ip_adjv m v s : apart m 9 v 3 ->
  let x := rd3 s v in let a := rdm3 s m in
  let A := M3 (cyy a * czz a - czy a * cyz a) (czy a * cxz a - cxy a * czz a) (cxy a * cyz a - cyy a * cxz a)
              (czx a * cyz a - cyx a * czz a) (cxx a * czz a - czx a * cxz a) (cyx a * cxz a - cxx a * cyz a)
              (cyx a * czy a - czx a * cyy a) (czx a * cxy a - cxx a * czy a) (cxx a * cyy a - cyx a * cxy a) in
  let y := mvec A x in
  (rd3 (p_zMulAdjMat3DVec3D m v v s) v = y <->
   cxy A * (vx y - vx x) = 0 /\ cxz A * (vx y - vx x) + cyz A * (vy y - vy x) = 0).
Proof.
  intros H. cbv zeta.
  unfold apart, p_zMulAdjMat3DVec3D, adjrow in *. unfold rd3 at 1. run. openv. rewrite V3_inj.
  generalize (s m) (s (m + 1)%nat) (s (m + 2)%nat) (s (m + 3)%nat) (s (m + 4)%nat) (s (m + 5)%nat) (s (m + 6)%nat) (s (m + 7)%nat) (s (m + 8)%nat) (s v) (s (v + 1)%nat) (s (v + 2)%nat).
  intros. split.
  - intros (A & B & C). split; [lra|]. rewrite B in C. lra.
  - intros (A & B). split; [ring|]. match goal with |- ?P /\ _ => assert (K : P) by lra end. split; [exact K|]. rewrite K. lra.
Qed.

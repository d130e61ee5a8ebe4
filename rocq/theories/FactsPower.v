(** Proofs about the power method. *)
From Verif Require Import Base Spec SpecBox SpecPower ModelPower FactsVec FactsAlg FactsMat FactsObb FactsMisc.
From Coq Require Import Lra Lia.
Open Scope R_scope.

Lemma sq_abs x t : 0 < t -> Rabs x < t -> x * x < t * t.
Proof. intros T H. apply Rabs_def2 in H. nra. Qed.
Lemma negl_sq v : negligible v -> dot v v < 3 * (zTOL * zTOL).
Proof. intros (A & B & C). pose proof zTOL_pos as T. pose proof (sq_abs _ _ T A). pose proof (sq_abs _ _ T B). pose proof (sq_abs _ _ T C). unfold dot. lra. Qed.
Lemma sq_negl v : dot v v < zTOL * zTOL -> negligible v.
Proof.
  intros H. pose proof zTOL_pos as T. unfold dot in H. pose proof (Rle_0_sqr (vx v)) as A. pose proof (Rle_0_sqr (vy v)) as B. pose proof (Rle_0_sqr (vz v)) as C. unfold Rsqr in *.
  assert (G : forall x, x * x < zTOL * zTOL -> Rabs x < zTOL). { intros x X. pose proof (Rabs_pos x). assert (Rabs x * Rabs x = x * x) by (rewrite <- Rabs_mult; apply Rabs_right, Rle_ge, Rle_0_sqr). nra. }
  repeat split; apply G; lra.
Qed.
Lemma norm_sq v : norm v * norm v = dot v v.
Proof. unfold norm. apply sqrt_sqrt. unfold dot. nra. Qed.
Lemma norm_le v k : 0 <= k -> dot v v <= k * k -> norm v <= k.
Proof. intros K H. unfold norm. rewrite <- (sqrt_square k K). apply sqrt_le_1_alt, H. Qed.

(** ** One step *)
Definition rest (m : mat3) (ev : vec3) : vec3 := vsub (mvec m ev) (vscale (dot ev (mvec m ev)) ev).
Lemma cat_rest m ev : zVec3DCat (zMulMat3DVec3D m ev) (- zVec3DInnerProd ev (zMulMat3DVec3D m ev)) ev = rest m ev.
Proof. rewrite zmv_spec. unfold rest. change (zVec3DInnerProd ev (mvec m ev)) with (dot ev (mvec m ev)). unfold zVec3DCat. spec_unfold. f_equal; ring. Qed.
Lemma unit_next v ev : dot ev ev = 1 \/ ~ negligible v -> dot (snd (zVec3DNormalize v ev)) (snd (zVec3DNormalize v ev)) = 1.
Proof.
  intros H. unfold zVec3DNormalize. destruct (zVec3DIsTiny v) eqn:E.
  - cbn [snd]. destruct H as [H|H]; [exact H|]. apply zVec3DIsTiny_true in E. contradiction.
  - apply zVec3DIsTiny_false in E. destruct (normalize3_ok v ev E) as (a & Q & U & _). unfold zVec3DNormalize in Q. rewrite (proj2 (zVec3DIsTiny_false v) E) in Q. rewrite Q. cbn [snd]. rewrite <- norm_sq, U. ring.
Qed.
Lemma loop_stop n m : forall v ev l w l', dot ev ev = 1 \/ ~ negligible v -> powerLoop n m v ev l = (w, l', true) -> exists e, dot e e = 1 /\ w = mvec m e /\ l' = dot e (mvec m e) /\ negligible (rest m e).
Proof.
  induction n as [|n IH]; intros v ev l w l' H E; cbn [powerLoop] in E; [discriminate|]. pose proof (unit_next v ev H) as U. set (e := snd (zVec3DNormalize v ev)) in *. rewrite cat_rest in E. destruct (zVec3DIsTiny (rest m e)) eqn:T.
  - inversion E; subst. exists e. split; [exact U|]. split; [apply zmv_spec|]. split; [rewrite zmv_spec; reflexivity|]. apply zVec3DIsTiny_true, T.
  - apply (IH _ _ _ _ _ (or_introl U) E).
Qed.
(** where the iteration stops by itself: a unit vector whose image is its multiple up to the tolerance *)
Theorem power_stop n m s junk l e : ~ negligible s -> zMat3DEigPower n m s junk = (l, e, true) ->
  exists u, norm u = 1 /\ l = dot u (mvec m u) /\ negligible (vsub (mvec m u) (vscale l u)) /\ (l <> 0 -> vscale l e = mvec m u) /\ (l = 0 -> e = mvec m u).
Proof.
  intros N E. unfold zMat3DEigPower in E. destruct (powerLoop n m s junk 1) as [[w l'] b] eqn:P. inversion E; subst. destruct (loop_stop n m s junk 1 w l (or_intror N) P) as (u & U & -> & L & R).
  exists u. split; [unfold norm; rewrite U; exact sqrt_1|]. split; [exact L|]. split; [unfold rest in R; rewrite <- L in R; exact R|]. unfold zVec3DDiv. split.
  - intros NZ. rewrite (proj2 (Reqb_false l 0) NZ). destruct (mvec m u) as [xa xb xc]. unfold zVec3DMul, vscale. cbn [vx vy vz]. f_equal; field; exact NZ.
  - intros ->. destruct (Reqb 0 0) eqn:Q; [reflexivity|]. apply Reqb_false in Q. congruence.
Qed.

(** ** Coordinates *)
Section Spectrum.
Variables (m : mat3) (u1 u2 u3 : vec3) (l1 l2 l3 : R).
Hypothesis SP : spectrum m u1 u2 u3 l1 l2 l3.
Lemma basis_iso : isometry (cols3 u1 u2 u3).
Proof. destruct SP as (A & B & C & D & E & F & _). apply orthonormal_cols; assumption. Qed.
Lemma coords v w : dot v w = dot u1 v * dot u1 w + dot u2 v * dot u2 w + dot u3 v * dot u3 w.
Proof.
  pose proof (iso_r _ basis_iso) as H. assert (G : dot v w = dot (mvec (mtr (cols3 u1 u2 u3)) v) (mvec (mtr (cols3 u1 u2 u3)) w)).
  { rewrite <- (mvec_id w) at 1. rewrite <- H. destruct u1, u2, u3, v, w. spec_unfold. ring. }
  rewrite G. destruct u1, u2, u3, v, w. spec_unfold. ring.
Qed.
Lemma expand v : v = vadd (vadd (vscale (dot u1 v) u1) (vscale (dot u2 v) u2)) (vscale (dot u3 v) u3).
Proof.
  pose proof (iso_r _ basis_iso) as H. rewrite <- (mvec_id v) at 1. rewrite <- H. destruct u1, u2, u3, v. spec_unfold. f_equal; ring.
Qed.
Lemma image v : dot u1 (mvec m v) = l1 * dot u1 v /\ dot u2 (mvec m v) = l2 * dot u2 v /\ dot u3 (mvec m v) = l3 * dot u3 v.
Proof.
  destruct SP as (A & B & C & D & E & F & X & Y & Z). unfold eigen in *.
  assert (M : mvec m v = vadd (vadd (vscale (dot u1 v * l1) u1) (vscale (dot u2 v * l2) u2)) (vscale (dot u3 v * l3) u3)).
  { rewrite (expand v) at 1. assert (LIN : forall a b c, mvec m (vadd (vadd (vscale a u1) (vscale b u2)) (vscale c u3)) = vadd (vadd (vscale a (mvec m u1)) (vscale b (mvec m u2))) (vscale c (mvec m u3))) by (intros; destruct m, u1, u2, u3; spec_unfold; f_equal; ring).
    rewrite LIN, X, Y, Z. destruct u1, u2, u3. spec_unfold. f_equal; ring. }
  rewrite M. assert (DL : forall w a b c, dot w (vadd (vadd (vscale a u1) (vscale b u2)) (vscale c u3)) = a * dot w u1 + b * dot w u2 + c * dot w u3) by (intros; destruct w, u1, u2, u3; spec_unfold; ring).
  assert (SY : forall a b, dot a b = dot b a) by (intros; unfold dot; ring).
  rewrite !DL. rewrite A, B, C, D, E, F, (SY u2 u1), (SY u3 u2), (SY u1 u3), D, E, F. repeat split; ring.
Qed.
Lemma image_sq v : dot (mvec m v) (mvec m v) = l1 * l1 * (dot u1 v * dot u1 v) + l2 * l2 * (dot u2 v * dot u2 v) + l3 * l3 * (dot u3 v * dot u3 v).
Proof. destruct (image v) as (A & B & C). rewrite coords, A, B, C. ring. Qed.
Lemma rayleigh v : dot v (mvec m v) = l1 * (dot u1 v * dot u1 v) + l2 * (dot u2 v * dot u2 v) + l3 * (dot u3 v * dot u3 v).
Proof. destruct (image v) as (A & B & C). rewrite coords, A, B, C. ring. Qed.
Lemma rest_any v k : dot (vsub (mvec m v) (vscale k v)) (vsub (mvec m v) (vscale k v)) =
  (l1 - k) * (l1 - k) * (dot u1 v * dot u1 v) + (l2 - k) * (l2 - k) * (dot u2 v * dot u2 v) + (l3 - k) * (l3 - k) * (dot u3 v * dot u3 v).
Proof.
  destruct (image v) as (A & B & C). rewrite coords. assert (D : forall u, dot u (vsub (mvec m v) (vscale k v)) = dot u (mvec m v) - k * dot u v) by (intros; destruct u, (mvec m v), v; spec_unfold; ring).
  rewrite !D, A, B, C. ring.
Qed.
(** ** The value is near some factor *)
Theorem power_near n s junk l e : ~ negligible s -> zMat3DEigPower n m s junk = (l, e, true) -> Rabs (l - l1) < 2 * zTOL \/ Rabs (l - l2) < 2 * zTOL \/ Rabs (l - l3) < 2 * zTOL.
Proof.
  intros N E. destruct (power_stop n m s junk l e N E) as (u & U & L & NG & _). apply negl_sq in NG. rewrite rest_any in NG.
  assert (U1 : dot u1 u * dot u1 u + dot u2 u * dot u2 u + dot u3 u * dot u3 u = 1) by (rewrite <- coords, <- norm_sq, U; ring).
  pose proof zTOL_pos as T.
  assert (G : forall x, ~ Rabs (l - x) < 2 * zTOL -> 4 * (zTOL * zTOL) <= (x - l) * (x - l)). { intros x H. apply Rnot_lt_le in H. assert (Rabs (l - x) * Rabs (l - x) = (x - l) * (x - l)) by (rewrite <- Rabs_mult, Rabs_right; [ring|apply Rle_ge, Rle_0_sqr]). assert ((2 * zTOL) * (2 * zTOL) <= Rabs (l - x) * Rabs (l - x)) by (apply Rmult_le_compat; lra). lra. }
  destruct (Rlt_dec (Rabs (l - l1)) (2 * zTOL)) as [Q1|Q1]; [left; exact Q1|]. destruct (Rlt_dec (Rabs (l - l2)) (2 * zTOL)) as [Q2|Q2]; [right; left; exact Q2|]. destruct (Rlt_dec (Rabs (l - l3)) (2 * zTOL)) as [Q3|Q3]; [right; right; exact Q3|]. exfalso.
  apply G in Q1, Q2, Q3. pose proof (Rle_0_sqr (dot u1 u)) as A. pose proof (Rle_0_sqr (dot u2 u)) as B. pose proof (Rle_0_sqr (dot u3 u)) as C. unfold Rsqr in A, B, C.
  pose proof (Rmult_le_compat_r _ _ _ A Q1). pose proof (Rmult_le_compat_r _ _ _ B Q2). pose proof (Rmult_le_compat_r _ _ _ C Q3). assert (0 < zTOL * zTOL) by nra. nra.
Qed.

(** ** The dominant factor *)
Hypothesis D2 : l2 * l2 < l1 * l1.
Hypothesis D3 : l3 * l3 < l1 * l1.
Variable c : R.
Hypothesis C0 : 0 < c.
Hypothesis LC : 4 * zTOL <= Rabs l1 * c.
Definition leaning (v : vec3) : Prop := ~ negligible v /\ c * c * dot v v <= dot u1 v * dot u1 v.
Definition within (r : R) (v : vec3) : Prop := dot u2 v * dot u2 v + dot u3 v * dot u3 v <= r * (dot u1 v * dot u1 v).
Lemma l1c : 16 * (zTOL * zTOL) <= l1 * l1 * (c * c).
Proof.
  pose proof zTOL_pos. assert (Rabs l1 * Rabs l1 = l1 * l1) by (rewrite <- Rabs_mult; apply Rabs_right, Rle_ge, Rle_0_sqr). assert (X : (4 * zTOL) * (4 * zTOL) <= (Rabs l1 * c) * (Rabs l1 * c)) by (apply Rmult_le_compat; lra). nra.
Qed.
Lemma unit_step v ev : leaning v -> exists a, snd (zVec3DNormalize v ev) = a /\ dot a a = 1 /\ c * c <= dot u1 a * dot u1 a /\ leaning (mvec m a) /\ (forall r, within r v -> within r a).
Proof.
  intros (N & H). destruct (normalize3_ok v ev N) as (a & Q & U & E). exists a. rewrite Q. split; [reflexivity|]. assert (UA : dot a a = 1) by (rewrite <- norm_sq, U; ring). split; [exact UA|].
  pose proof (nonneg_norm_pos v N) as NP. assert (CO : forall u, dot u v = norm v * dot u a). { intros u. rewrite <- E at 1. destruct u, a. spec_unfold. ring. }
  rewrite <- norm_sq, CO in H. assert (K : 0 < norm v * norm v) by nra.
  assert (CA : c * c <= dot u1 a * dot u1 a). { apply (Rmult_le_reg_l (norm v * norm v)); [exact K|]. nra. } split; [exact CA|].
  assert (A1 : dot u1 a * dot u1 a + dot u2 a * dot u2 a + dot u3 a * dot u3 a = 1) by (rewrite <- coords; exact UA).
  pose proof (Rle_0_sqr (dot u2 a)) as B. pose proof (Rle_0_sqr (dot u3 a)) as C. unfold Rsqr in B, C.
  assert (UP : dot (mvec m a) (mvec m a) <= l1 * l1). { rewrite image_sq. pose proof (Rmult_le_compat_r _ _ _ B (Rlt_le _ _ D2)). pose proof (Rmult_le_compat_r _ _ _ C (Rlt_le _ _ D3)). nra. }
  destruct (image a) as (I1 & I2 & I3). assert (LO : l1 * l1 * (c * c) <= dot u1 (mvec m a) * dot u1 (mvec m a)). { rewrite I1. replace (l1 * dot u1 a * (l1 * dot u1 a)) with (l1 * l1 * (dot u1 a * dot u1 a)) by ring. apply Rmult_le_compat_l; [nra|exact CA]. }
  split; [split|].
  - apply long_not_negligible. pose proof l1c as LL. pose proof zTOL_pos as T. assert (Q2 : dot u1 (mvec m a) * dot u1 (mvec m a) <= dot (mvec m a) (mvec m a)). { rewrite (coords (mvec m a) (mvec m a)). pose proof (Rle_0_sqr (dot u2 (mvec m a))) as B'. pose proof (Rle_0_sqr (dot u3 (mvec m a))) as C'. unfold Rsqr in B', C'. lra. }
    pose proof (norm_nonneg (mvec m a)) as NN. rewrite <- norm_sq in Q2. apply Rnot_lt_le. intros LT. assert (norm (mvec m a) * norm (mvec m a) <= (2 * zTOL) * (2 * zTOL)) by (apply Rmult_le_compat; lra). nra.
  - assert (0 <= c * c) by nra. pose proof (Rmult_le_compat_l _ _ _ H0 UP). lra.
  - intros r W. unfold within in *. rewrite !CO in W. apply (Rmult_le_reg_l (norm v * norm v)); [exact K|]. nra.
Qed.
Definition q : R := Rmax (l2 * l2) (l3 * l3) / (l1 * l1).
Lemma l1_pos : 0 < l1 * l1.
Proof. pose proof (Rle_0_sqr l2) as A. unfold Rsqr in A. lra. Qed.
Lemma q_ok : 0 <= q < 1 /\ l2 * l2 <= q * (l1 * l1) /\ l3 * l3 <= q * (l1 * l1).
Proof.
  pose proof l1_pos as P. assert (E : q * (l1 * l1) = Rmax (l2 * l2) (l3 * l3)) by (unfold q; field; intros Z; rewrite Z in P; lra). rewrite E.
  assert (M : Rmax (l2 * l2) (l3 * l3) < l1 * l1) by (apply Rmax_lub_lt; assumption). pose proof (Rmax_l (l2 * l2) (l3 * l3)). pose proof (Rmax_r (l2 * l2) (l3 * l3)). assert (0 <= l2 * l2) by nra.
  split; [|split; assumption]. split; [apply (Rmult_le_reg_r (l1 * l1)); lra|apply (Rmult_lt_reg_r (l1 * l1)); lra].
Qed.
Lemma within_image r a : 0 <= r -> within r a -> within (q * r) (mvec m a).
Proof.
  intros R0 W. unfold within in *. destruct (image a) as (-> & -> & ->). destruct q_ok as ((Q0 & _) & Q2 & Q3).
  pose proof (Rle_0_sqr (dot u2 a)) as B. pose proof (Rle_0_sqr (dot u3 a)) as C. unfold Rsqr in B, C. pose proof (Rmult_le_compat_r _ _ _ B Q2) as X. pose proof (Rmult_le_compat_r _ _ _ C Q3) as Y.
  assert (Z : 0 <= q * (l1 * l1)) by (pose proof l1_pos; nra). pose proof (Rmult_le_compat_l _ _ _ Z W) as V. nra.
Qed.
Lemma rest_small r a : dot a a = 1 -> 0 <= r -> within r a -> dot (rest m a) (rest m a) <= 4 * (l1 * l1) * r.
Proof.
  intros U R0 W. unfold rest. set (k := dot a (mvec m a)). rewrite rest_any. pose proof (rayleigh a) as RQ. fold k in RQ. rewrite coords in U. unfold within in W.
  pose proof (Rle_0_sqr (dot u1 a)) as A. pose proof (Rle_0_sqr (dot u2 a)) as B. pose proof (Rle_0_sqr (dot u3 a)) as C. unfold Rsqr in A, B, C. set (x := dot u1 a * dot u1 a) in *. set (y := dot u2 a * dot u2 a) in *. set (z := dot u3 a * dot u3 a) in *. clearbody x y z.
  assert (ID : (l1 - k) * (l1 - k) * x + (l2 - k) * (l2 - k) * y + (l3 - k) * (l3 - k) * z = (l2 - l1) * (l2 - l1) * y + (l3 - l1) * (l3 - l1) * z - (k - l1) * (k - l1)).
  { replace x with (1 - y - z) in * by lra. rewrite RQ. ring. }
  rewrite ID. assert (M2 : (l2 - l1) * (l2 - l1) <= 4 * (l1 * l1)). { assert (0 <= (l2 + l1) * (l2 + l1)) by apply Rle_0_sqr. nra. } assert (M3 : (l3 - l1) * (l3 - l1) <= 4 * (l1 * l1)). { assert (0 <= (l3 + l1) * (l3 + l1)) by apply Rle_0_sqr. nra. }
  pose proof (Rmult_le_compat_r _ _ _ B M2). pose proof (Rmult_le_compat_r _ _ _ C M3). assert (0 <= (k - l1) * (k - l1)) by apply Rle_0_sqr. assert (YZ : y + z <= r). { assert (r * x <= r * 1) by (apply Rmult_le_compat_l; lra). lra. }
  assert (0 <= 4 * (l1 * l1)) by nra. pose proof (Rmult_le_compat_l _ _ _ H2 YZ). lra.
Qed.
Lemma loop_limit k : forall v ev l r n, leaning v -> 0 <= r -> within r v -> 4 * (l1 * l1) * (q ^ k * r) < zTOL * zTOL -> (k < n)%nat ->
  exists e, powerLoop n m v ev l = (mvec m e, dot e (mvec m e), true) /\ dot e e = 1 /\ c * c <= dot u1 e * dot u1 e /\ negligible (rest m e).
Proof.
  induction k as [|k IH]; intros v ev l r n LV R0 W S LT; (destruct n as [|n]; [lia|]); cbn [powerLoop]; destruct (unit_step v ev LV) as (a & -> & UA & CA & LI & WI); rewrite cat_rest; specialize (WI r W).
  - assert (NG : negligible (rest m a)). { apply sq_negl. pose proof (rest_small r a UA R0 WI). cbn [pow] in S. lra. }
    rewrite (proj2 (zVec3DIsTiny_true _) NG), zmv_spec. exists a. repeat split; try assumption; apply NG.
  - destruct (zVec3DIsTiny (rest m a)) eqn:T.
    + apply zVec3DIsTiny_true in T. exists a. rewrite zmv_spec. repeat split; try assumption; apply T.
    + rewrite zmv_spec. apply (IH (mvec m a) a (zVec3DInnerProd a (mvec m a)) (q * r) n LI); [apply Rmult_le_pos; [apply q_ok|exact R0]|apply within_image; assumption| |lia]. replace (q ^ k * (q * r)) with (q ^ Datatypes.S k * r) by (cbn [pow]; ring). exact S.
Qed.
Lemma lean_start s : ~ negligible s -> c * norm s <= Rabs (dot u1 s) -> leaning s /\ exists r, 0 <= r /\ within r s.
Proof.
  intros N H. pose proof (nonneg_norm_pos s N) as P. assert (AB : Rabs (dot u1 s) * Rabs (dot u1 s) = dot u1 s * dot u1 s) by (rewrite <- Rabs_mult; apply Rabs_right, Rle_ge, Rle_0_sqr).
  assert (CN : 0 < c * norm s) by nra. assert (L : (c * norm s) * (c * norm s) <= dot u1 s * dot u1 s) by (rewrite <- AB; apply Rmult_le_compat; lra).
  split; [split; [exact N|]; rewrite <- norm_sq; nra|]. set (x := dot u1 s * dot u1 s) in *. assert (X : 0 < x) by nra.
  exists ((dot u2 s * dot u2 s + dot u3 s * dot u3 s) / x). split.
  - apply Rle_mult_inv_pos; [|exact X]. pose proof (Rle_0_sqr (dot u2 s)) as B. pose proof (Rle_0_sqr (dot u3 s)) as C. unfold Rsqr in B, C. lra.
  - unfold within. fold x. right. field. lra.
Qed.
Lemma limit_result e : dot e e = 1 -> c * c <= dot u1 e * dot u1 e -> negligible (rest m e) ->
  let l := dot e (mvec m e) in let w := vscale (1 / l) (mvec m e) in l <> 0 /\ Rabs (l - l1) * c <= 2 * zTOL /\ norm (vsub (mvec m w) (vscale l w)) <= 4 * zTOL /\ Rabs l1 * norm (vsub w e) <= 4 * zTOL /\
  (forall g, 4 * zTOL <= g * c -> g <= Rabs (l1 - l2) -> g <= Rabs (l1 - l3) -> dot u2 w * dot u2 w + dot u3 w * dot u3 w <= (7 * zTOL / g) * (7 * zTOL / g)).
Proof.
  intros U CE NG l w. pose proof (negl_sq _ NG) as RS. unfold rest in RS. fold l in RS. rewrite rest_any in RS. pose proof zTOL_pos as T.
  assert (A1 : dot u1 e * dot u1 e + dot u2 e * dot u2 e + dot u3 e * dot u3 e = 1) by (rewrite <- coords; exact U).
  pose proof (Rle_0_sqr (dot u2 e)) as B. pose proof (Rle_0_sqr (dot u3 e)) as C. unfold Rsqr in B, C.
  assert (C1 : c <= 1) by nra.
  pose proof (Rle_0_sqr (l1 - l)) as K1. pose proof (Rle_0_sqr (l2 - l)) as K2. pose proof (Rle_0_sqr (l3 - l)) as K3. unfold Rsqr in K1, K2, K3.
  pose proof (Rmult_le_pos _ _ K2 B) as KB. pose proof (Rmult_le_pos _ _ K3 C) as KC. pose proof (Rmult_le_compat_l _ _ _ K1 CE) as KA.
  assert (LE : Rabs (l - l1) * c <= 2 * zTOL).
  { apply Rnot_lt_le. intros LT. pose proof (Rabs_pos (l - l1)). assert (Rabs (l - l1) * Rabs (l - l1) = (l1 - l) * (l1 - l)) by (rewrite <- Rabs_mult, Rabs_right; [ring|apply Rle_ge, Rle_0_sqr]).
    assert ((2 * zTOL) * (2 * zTOL) <= (Rabs (l - l1) * c) * (Rabs (l - l1) * c)) by (apply Rmult_le_compat; lra). nra. }
  assert (HALF : Rabs l1 <= 2 * Rabs l). { pose proof (Rabs_triang_inv l1 (l1 - l)) as TI. replace (l1 - (l1 - l)) with l in TI by ring. rewrite (Rabs_minus_sym l l1) in LE. apply Rnot_lt_le. intros LT. assert (Rabs l1 * c < 2 * (Rabs (l1 - l)) * c) by (apply Rmult_lt_compat_r; lra). lra. }
  assert (L1 : 0 < Rabs l1) by (apply Rabs_pos_lt; intros Z; pose proof l1_pos as P; rewrite Z in P; lra).
  assert (LP : 0 < Rabs l) by lra. assert (L0 : l <> 0) by (intros Z; rewrite Z, Rabs_R0 in LP; lra).
  assert (LL : l1 * l1 <= 4 * (l * l)). { assert (Rabs l1 * Rabs l1 = l1 * l1) by (rewrite <- Rabs_mult, Rabs_right; [reflexivity|apply Rle_ge, Rle_0_sqr]). assert (Rabs l * Rabs l = l * l) by (rewrite <- Rabs_mult, Rabs_right; [reflexivity|apply Rle_ge, Rle_0_sqr]). assert (Rabs l1 * Rabs l1 <= (2 * Rabs l) * (2 * Rabs l)) by (apply Rmult_le_compat; lra). lra. }
  assert (L2P : 0 < l * l) by nra.
  split; [exact L0|]. split; [exact LE|].
  assert (WE : vsub w e = vscale (1 / l) (vsub (mvec m e) (vscale l e))). { unfold w. generalize (mvec m e). intros z. destruct z, e. spec_unfold. f_equal; field; exact L0. }
  assert (D1 : dot (vsub w e) (vsub w e) * (l * l) <= 3 * (zTOL * zTOL)). { rewrite WE. replace (dot _ _) with (1 / l * (1 / l) * dot (vsub (mvec m e) (vscale l e)) (vsub (mvec m e) (vscale l e))) by (generalize (vsub (mvec m e) (vscale l e)); intros z; destruct z; spec_unfold; ring). rewrite rest_any. apply Rlt_le. replace (1 / l * (1 / l) * _ * (l * l)) with ((l1 - l) * (l1 - l) * (dot u1 e * dot u1 e) + (l2 - l) * (l2 - l) * (dot u2 e * dot u2 e) + (l3 - l) * (l3 - l) * (dot u3 e * dot u3 e)) by (field; exact L0). exact RS. }
  split; [|split].
  - apply norm_le; [lra|]. assert (ME : vsub (mvec m w) (vscale l w) = mvec m (vsub w e)). { unfold w at 2. replace (vscale l (vscale (1 / l) (mvec m e))) with (mvec m e) by (generalize (mvec m e); intros z; destruct z; spec_unfold; f_equal; field; exact L0). destruct m, w, e. spec_unfold. f_equal; ring. }
    rewrite ME, image_sq. set (d := vsub w e) in *. pose proof (Rle_0_sqr (dot u2 d)) as B'. pose proof (Rle_0_sqr (dot u3 d)) as C'. unfold Rsqr in B', C'. pose proof (Rmult_le_compat_r _ _ _ B' (Rlt_le _ _ D2)). pose proof (Rmult_le_compat_r _ _ _ C' (Rlt_le _ _ D3)).
    assert (UP : l1 * l1 * dot d d <= 12 * (zTOL * zTOL)). { assert (0 <= dot d d) by (unfold dot; nra). pose proof (Rmult_le_compat_r _ _ _ H1 LL). lra. } rewrite (coords d d) in UP. assert (0 < zTOL * zTOL) by nra. lra.
  - assert (UP : l1 * l1 * dot (vsub w e) (vsub w e) <= 12 * (zTOL * zTOL)). { assert (0 <= dot (vsub w e) (vsub w e)) by (unfold dot; nra). pose proof (Rmult_le_compat_r _ _ _ H LL). lra. }
    rewrite <- norm_sq in UP. pose proof (norm_nonneg (vsub w e)) as NN. apply Rnot_lt_le. intros LT. assert (AB : Rabs l1 * Rabs l1 = l1 * l1) by (rewrite <- Rabs_mult, Rabs_right; [reflexivity|apply Rle_ge, Rle_0_sqr]).
    assert ((4 * zTOL) * (4 * zTOL) <= (Rabs l1 * norm (vsub w e)) * (Rabs l1 * norm (vsub w e))) by (apply Rmult_le_compat; lra). assert (0 < zTOL * zTOL) by nra. nra.
  - intros g G0 G2 G3. assert (GP : 0 < g) by (apply (Rmult_lt_reg_r c); lra). destruct (image e) as (_ & I2 & I3).
    assert (W2 : dot u2 w = l2 * dot u2 e / l). { unfold w. rewrite <- I2. generalize (mvec m e). intros z. destruct z, u2. spec_unfold. field. exact L0. }
    assert (W3 : dot u3 w = l3 * dot u3 e / l). { unfold w. rewrite <- I3. generalize (mvec m e). intros z. destruct z, u3. spec_unfold. field. exact L0. }
    assert (GAP : forall x, g <= Rabs (l1 - x) -> g * g <= 4 * ((x - l) * (x - l))).
    { intros x GX. pose proof (Rabs_triang (l1 - l) (l - x)) as TI. replace (l1 - l + (l - x)) with (l1 - x) in TI by ring. rewrite (Rabs_minus_sym l1 l) in TI.
      assert (HG : Rabs (l - l1) <= g / 2). { apply (Rmult_le_reg_r c); [exact C0|]. lra. } assert (g <= 2 * Rabs (l - x)) by lra. assert (Rabs (l - x) * Rabs (l - x) = (x - l) * (x - l)) by (rewrite <- Rabs_mult, Rabs_right; [ring|apply Rle_ge, Rle_0_sqr]).
      assert (g * g <= (2 * Rabs (l - x)) * (2 * Rabs (l - x))) by (apply Rmult_le_compat; lra). lra. }
    pose proof (Rmult_le_compat_r _ _ _ B (GAP _ G2)) as X2. pose proof (Rmult_le_compat_r _ _ _ C (GAP _ G3)) as X3.
    assert (KE : 0 <= (l1 - l) * (l1 - l) * (dot u1 e * dot u1 e)) by (apply Rmult_le_pos; [exact K1|apply Rle_0_sqr]).
    assert (YZ : g * g * (dot u2 e * dot u2 e + dot u3 e * dot u3 e) <= 12 * (zTOL * zTOL)) by lra.
    rewrite W2, W3. replace (l2 * dot u2 e / l * (l2 * dot u2 e / l) + l3 * dot u3 e / l * (l3 * dot u3 e / l)) with ((l2 * l2 * (dot u2 e * dot u2 e) + l3 * l3 * (dot u3 e * dot u3 e)) / (l * l)) by (field; exact L0).
    replace (7 * zTOL / g * (7 * zTOL / g)) with (49 * (zTOL * zTOL) / (g * g)) by (field; lra).
    pose proof (Rmult_le_compat_r _ _ _ B (Rlt_le _ _ D2)) as Y2. pose proof (Rmult_le_compat_r _ _ _ C (Rlt_le _ _ D3)) as Y3.
    assert (GG : 0 < g * g) by nra. apply (Rmult_le_reg_r ((l * l) * (g * g))); [apply Rmult_lt_0_compat; assumption|].
    replace ((l2 * l2 * (dot u2 e * dot u2 e) + l3 * l3 * (dot u3 e * dot u3 e)) / (l * l) * (l * l * (g * g))) with ((l2 * l2 * (dot u2 e * dot u2 e) + l3 * l3 * (dot u3 e * dot u3 e)) * (g * g)) by (field; exact L0).
    replace (49 * (zTOL * zTOL) / (g * g) * (l * l * (g * g))) with (49 * (zTOL * zTOL) * (l * l)) by (field; lra).
    set (s := dot u2 e * dot u2 e) in *. set (t := dot u3 e * dot u3 e) in *. assert (S1 : (l2 * l2 * s + l3 * l3 * t) * (g * g) <= (l1 * l1 * (s + t)) * (g * g)) by (apply Rmult_le_compat_r; lra).
    assert (S2 : l1 * l1 * (g * g * (s + t)) <= l1 * l1 * (12 * (zTOL * zTOL))) by (apply Rmult_le_compat_l; [pose proof l1_pos; lra|exact YZ]). assert (TT : 0 < zTOL * zTOL) by nra. pose proof (Rmult_le_compat_r _ _ _ (Rlt_le _ _ TT) LL) as S3. assert (0 < zTOL * zTOL * (l * l)) by (apply Rmult_lt_0_compat; assumption). nra.
Qed.
End Spectrum.

Lemma abs_sq x y : Rabs x < Rabs y -> x * x < y * y.
Proof.
  intros H. assert (A : forall z, Rabs z * Rabs z = z * z) by (intros; rewrite <- Rabs_mult; apply Rabs_right, Rle_ge, Rle_0_sqr). rewrite <- (A x), <- (A y). pose proof (Rabs_pos x). nra.
Qed.
(** ** A dominant factor is found *)
Theorem power_limit m u1 u2 u3 l1 l2 l3 s junk c : spectrum m u1 u2 u3 l1 l2 l3 -> Rabs l2 < Rabs l1 -> Rabs l3 < Rabs l1 -> ~ negligible s -> 0 < c -> c * norm s <= Rabs (dot u1 s) -> 4 * zTOL <= Rabs l1 * c ->
  exists N, forall n, (N <= n)%nat -> exists l e, zMat3DEigPower n m s junk = (l, e, true) /\ Rabs (l - l1) * c <= 2 * zTOL /\ norm (vsub (mvec m e) (vscale l e)) <= 4 * zTOL /\
    (exists u, norm u = 1 /\ Rabs l1 * norm (vsub e u) <= 4 * zTOL) /\
    (forall g, 4 * zTOL <= g * c -> g <= Rabs (l1 - l2) -> g <= Rabs (l1 - l3) -> dot u2 e * dot u2 e + dot u3 e * dot u3 e <= (7 * zTOL / g) * (7 * zTOL / g)).
Proof.
  intros SP D2 D3 NS C0 H LC. apply abs_sq in D2, D3. destruct (lean_start u1 u2 u3 c C0 s NS H) as (LS & r & R0 & W). pose proof zTOL_pos as T.
  destruct (q_ok l1 l2 l3 D2 D3) as ((Q0 & Q1) & _). set (Q := q l1 l2 l3) in *. assert (K : 0 < zTOL * zTOL / (4 * (l1 * l1) * r + 1)). { apply Rdiv_lt_0_compat; [nra|]. assert (0 <= 4 * (l1 * l1) * r) by (apply Rmult_le_pos; [nra|exact R0]). lra. }
  destruct (pow_lt_1_zero Q ltac:(rewrite Rabs_right; lra) _ K) as (k & PK). specialize (PK k (le_n k)). exists (Datatypes.S k). intros n LN.
  assert (SM : 4 * (l1 * l1) * (Q ^ k * r) < zTOL * zTOL).
  { assert (P0 : 0 <= Q ^ k) by (apply pow_le; exact Q0). rewrite Rabs_right in PK by lra. assert (B0 : 0 <= 4 * (l1 * l1) * r) by (apply Rmult_le_pos; [nra|exact R0]). apply (Rmult_lt_compat_r (4 * (l1 * l1) * r + 1)) in PK; [|lra]. replace (zTOL * zTOL / (4 * (l1 * l1) * r + 1) * (4 * (l1 * l1) * r + 1)) with (zTOL * zTOL) in PK by (field; lra). nra. }
  destruct (loop_limit m u1 u2 u3 l1 l2 l3 SP D2 D3 c LC k s junk 1 r n LS R0 W SM ltac:(lia)) as (e & P & UE & CE & NG).
  destruct (limit_result m u1 u2 u3 l1 l2 l3 SP D2 D3 c C0 LC e UE CE NG) as (L0 & X1 & X2 & X3 & X4).
  exists (dot e (mvec m e)), (vscale (1 / dot e (mvec m e)) (mvec m e)). split.
  - unfold zMat3DEigPower. rewrite P. unfold zVec3DDiv. rewrite (proj2 (Reqb_false _ 0) L0). reflexivity.
  - split; [exact X1|]. split; [exact X2|]. split; [|exact X4]. exists e. split; [unfold norm; rewrite UE; exact sqrt_1|exact X3].
Qed.

(** ** The inverse iteration *)
Lemma eigen_inv m im l u : mmul im m = mid -> l <> 0 -> eigen m l u -> eigen im (/ l) u.
Proof.
  unfold eigen. intros I NZ E. assert (G : mvec im (mvec m u) = u) by (rewrite <- mvec_mmul, I; apply mvec_id). rewrite E in G. rewrite <- G at 2. destruct im, u. spec_unfold_g. f_equal; field; exact NZ.
Qed.
Lemma inv_less a b : 0 < Rabs a -> Rabs a < Rabs b -> Rabs (/ b) < Rabs (/ a).
Proof. intros A B. rewrite !Rabs_inv. apply Rinv_lt_contravar; [nra|exact B]. Qed.
Theorem power_inv m old im u1 u2 u3 l1 l2 l3 s junk c : spectrum m u1 u2 u3 l1 l2 l3 -> zMat3DInv m old = (true, Computed im) -> 0 < Rabs l1 -> Rabs l1 < Rabs l2 -> Rabs l1 < Rabs l3 -> ~ negligible s -> 0 < c -> c * norm s <= Rabs (dot u1 s) -> 4 * zTOL * Rabs l1 <= c ->
  exists N, forall n, (N <= n)%nat -> exists v e, zMat3DEigPowerInv n m s junk old = Some (v, e, true) /\ Rabs (v - l1) * c <= 4 * zTOL * Rsqr l1 /\ (exists u, norm u = 1 /\ norm (vsub e u) <= 4 * zTOL * Rabs l1) /\
    (forall g, 4 * zTOL <= g * c -> g <= Rabs (/ l1 - / l2) -> g <= Rabs (/ l1 - / l3) -> dot u2 e * dot u2 e + dot u3 e * dot u3 e <= (7 * zTOL / g) * (7 * zTOL / g)).
Proof.
  intros SP IV P1 L2 L3 NS C0 H LC. destruct (inv_sound m old true im IV) as (_ & I). destruct SP as (A & B & C & D & E & F & X & Y & Z).
  assert (N1 : l1 <> 0) by (intros ->; rewrite Rabs_R0 in P1; lra). assert (N2 : l2 <> 0) by (intros ->; rewrite Rabs_R0 in L2; lra). assert (N3 : l3 <> 0) by (intros ->; rewrite Rabs_R0 in L3; lra).
  assert (SP' : spectrum im u1 u2 u3 (/ l1) (/ l2) (/ l3)) by (unfold spectrum; repeat split; try assumption; eapply eigen_inv; eassumption).
  assert (LC' : 4 * zTOL <= Rabs (/ l1) * c). { rewrite Rabs_inv. apply (Rmult_le_reg_l (Rabs l1)); [exact P1|]. replace (Rabs l1 * (/ Rabs l1 * c)) with c by (field; lra). lra. }
  destruct (power_limit im u1 u2 u3 (/ l1) (/ l2) (/ l3) s junk c SP' (inv_less _ _ P1 L2) (inv_less _ _ P1 L3) NS C0 H LC') as (N & G). exists N. intros n LN. destruct (G n LN) as (l & e & PE & VL & _ & (u & U & UE) & GAP).
  pose proof zTOL_pos as T. assert (HALF : Rabs (/ l1) <= 2 * Rabs l). { pose proof (Rabs_triang_inv (/ l1) (/ l1 - l)) as TI. replace (/ l1 - (/ l1 - l)) with l in TI by ring. rewrite (Rabs_minus_sym (/ l1) l) in TI. apply Rnot_lt_le. intros LT. assert (Rabs (/ l1) * c < 2 * (Rabs (l - / l1)) * c) by (apply Rmult_lt_compat_r; lra). lra. }
  assert (P1' : 0 < Rabs (/ l1)) by (apply Rabs_pos_lt, Rinv_neq_0_compat, N1). assert (L0 : l <> 0) by (intros ->; rewrite Rabs_R0 in HALF; lra).
  exists (1 / l), e. split; [unfold zMat3DEigPowerInv; rewrite IV, PE, (proj2 (Reqb_false l 0) L0); reflexivity|]. split.
  - replace (1 / l - l1) with (- ((l - / l1) * (l1 / l))) by (field; split; assumption). rewrite Rabs_Ropp, Rabs_mult. unfold Rdiv. rewrite (Rabs_mult l1), (Rabs_inv l). assert (A2 : Rsqr l1 = Rabs l1 * Rabs l1) by (unfold Rsqr; rewrite <- Rabs_mult; symmetry; apply Rabs_right, Rle_ge, Rle_0_sqr). rewrite A2.
    rewrite Rabs_inv in HALF. assert (LP : 0 < Rabs l) by (apply Rabs_pos_lt, L0). assert (IL : / Rabs l <= 2 * Rabs l1). { apply (Rmult_le_reg_l (Rabs l)); [exact LP|]. rewrite Rinv_r by lra. apply (Rmult_le_compat_l (Rabs l1)) in HALF; [|lra]. rewrite Rinv_r in HALF by lra. lra. }
    assert (S1 : Rabs l1 * / Rabs l <= Rabs l1 * (2 * Rabs l1)) by (apply Rmult_le_compat_l; lra). assert (S0 : 0 <= Rabs l1 * / Rabs l) by (apply Rmult_le_pos; [lra|apply Rlt_le, Rinv_0_lt_compat, LP]).
    pose proof (Rmult_le_compat_r _ _ _ S0 VL) as V1. assert (V2 : 2 * zTOL * (Rabs l1 * / Rabs l) <= 2 * zTOL * (Rabs l1 * (2 * Rabs l1))) by (apply Rmult_le_compat_l; lra). nra.
  - split; [|exact GAP]. exists u. split; [exact U|]. rewrite Rabs_inv in UE. apply (Rmult_le_compat_l (Rabs l1)) in UE; [|lra]. replace (Rabs l1 * (/ Rabs l1 * norm (vsub e u))) with (norm (vsub e u)) in UE by (field; lra). lra.
Qed.
Theorem power_inv_singular n m s junk old : mdet m = 0 -> zMat3DEigPowerInv n m s junk old = None.
Proof.
  intros D. destruct (inv_singular m old D) as (_ & H). unfold zMat3DEigPowerInv. destruct (zMat3DInv m old) as [b [im|im|]]; [|destruct b; reflexivity|destruct b; reflexivity]. exfalso. apply (H im). reflexivity.
Qed.

(** ** What it finds otherwise *)
Theorem power_along n m l s junk : ~ negligible s -> eigen m l s -> exists e, zMat3DEigPower (Datatypes.S n) m s junk = (l, e, true) /\ (l <> 0 -> norm e = 1 /\ vscale (norm s) e = s) /\ (l = 0 -> e = v3zero).
Proof.
  intros NS E. destruct (normalize3_ok s junk NS) as (a & Q & U & V). pose proof (nonneg_norm_pos s NS) as P.
  assert (EA : mvec m a = vscale l a). { unfold eigen in E. rewrite <- V in E. assert (X : vscale (norm s) (mvec m a) = vscale (norm s) (vscale l a)). { revert E. generalize (norm s). intros k K. transitivity (mvec m (vscale k a)); [destruct m, a; spec_unfold_g; f_equal; ring|]. rewrite K. destruct a. spec_unfold_g. f_equal; ring. }
    revert X. generalize (mvec m a). generalize (vscale l a). intros y x X. destruct x as [xa xb xc], y as [ya yb yc]. unfold vscale in X. cbn [vx vy vz] in X. injection X as X1 X2 X3. apply Rmult_eq_reg_l in X1, X2, X3; try lra. congruence. }
  assert (UA : dot a a = 1) by (rewrite <- norm_sq, U; ring). assert (LV : dot a (mvec m a) = l). { rewrite EA. transitivity (l * dot a a); [destruct a; spec_unfold_g; ring|rewrite UA; ring]. }
  assert (NG : negligible (rest m a)). { apply sq_negl. unfold rest. rewrite LV, EA. pose proof zTOL_pos. replace (dot _ _) with 0 by (destruct a; spec_unfold_g; ring). nra. }
  unfold zMat3DEigPower. cbn [powerLoop]. rewrite Q. cbn [snd]. rewrite cat_rest, (proj2 (zVec3DIsTiny_true _) NG), zmv_spec. change (zVec3DInnerProd a (mvec m a)) with (dot a (mvec m a)). rewrite LV, EA. unfold zVec3DDiv.
  destruct (Reqb l 0) eqn:Z.
  - apply Reqb_true in Z. exists (vscale l a). split; [reflexivity|]. split; [contradiction|]. intros _. rewrite Z. destruct a as [xa xb xc]. unfold vscale, v3zero. cbn [vx vy vz]. f_equal; ring.
  - apply Reqb_false in Z. exists a. split; [|split; [intros _; split; [exact U|exact V]|contradiction]]. f_equal. f_equal. destruct a as [xa xb xc]. unfold zVec3DMul, vscale. cbn [vx vy vz]. f_equal; field; exact Z.
Qed.
Definition mirror : mat3 := M3 1 0 0 0 (-1) 0 0 0 0.
Lemma mirror_loop n : forall v ev l, ~ negligible v -> vz v = 0 -> vx v * vx v = 4 * (vy v * vy v) -> (n = 0%nat -> l = 3/5) -> snd (fst (powerLoop n mirror v ev l)) = 3/5 /\ snd (powerLoop n mirror v ev l) = false.
Proof.
  induction n as [|n IH]; intros v ev l NV Z0 XY L; cbn [powerLoop]; [split; [apply L|]; reflexivity|]. clear L.
  destruct (normalize3_ok v ev NV) as (a & Q & U & V). rewrite Q. cbn [snd]. rewrite cat_rest, zmv_spec. pose proof (nonneg_norm_pos v NV) as P. assert (UA : dot a a = 1) by (rewrite <- norm_sq, U; ring).
  revert P V. generalize (norm v). intros k P V. destruct a as [xa xb xc]. rewrite <- V in Z0, XY. unfold vscale in Z0, XY. cbn [vx vy vz] in Z0, XY. unfold dot in UA. cbn [vx vy vz] in UA.
  assert (C0 : xc = 0) by (apply Rmult_integral in Z0; destruct Z0; [lra|assumption]). subst xc. assert (K : 0 < k * k) by nra. assert (A4 : xa * xa = 4 * (xb * xb)) by (apply (Rmult_eq_reg_l (k * k)); [nra|lra]).
  assert (ME : mvec mirror (V3 xa xb 0) = V3 xa (- xb) 0) by (unfold mirror; spec_unfold_g; f_equal; ring). assert (LV : dot (V3 xa xb 0) (mvec mirror (V3 xa xb 0)) = 3/5) by (rewrite ME; spec_unfold_g; nra).
  assert (BIG : forall p, 1 / 25 <= dot p p -> ~ negligible p). { intros p PP NG. apply negl_sq in NG. pose proof zTOL_small. pose proof zTOL_pos. assert (zTOL * zTOL <= 1 * zTOL) by (apply Rmult_le_compat_r; lra). lra. }
  assert (NR : ~ negligible (rest mirror (V3 xa xb 0))). { apply BIG. unfold rest. rewrite LV, ME. spec_unfold_g. nra. }
  rewrite (proj2 (zVec3DIsTiny_false _) NR). apply IH.
  - apply BIG. rewrite ME. spec_unfold_g. nra.
  - rewrite ME. reflexivity.
  - rewrite ME. cbn [vx vy]. lra.
  - intros _. exact LV.
Qed.
(** two opposite factors: never settled, and the answer is no factor at all *)
Theorem power_opposite n junk : exists e, zMat3DEigPower (Datatypes.S n) mirror (V3 2 1 0) junk = (3/5, e, false) /\ forall l u, norm u = 1 -> eigen mirror l u -> l = 1 \/ l = -1 \/ l = 0.
Proof.
  assert (NS : ~ negligible (V3 2 1 0)). { intros (A & _). cbn [vx] in A. rewrite Rabs_right in A by lra. pose proof zTOL_small. lra. }
  assert (X : snd (fst (powerLoop (Datatypes.S n) mirror (V3 2 1 0) junk 1)) = 3/5 /\ snd (powerLoop (Datatypes.S n) mirror (V3 2 1 0) junk 1) = false).
  { apply (mirror_loop (Datatypes.S n)); [exact NS|reflexivity|cbn [vx vy]; lra|discriminate]. }
  unfold zMat3DEigPower. destruct (powerLoop (Datatypes.S n) mirror (V3 2 1 0) junk 1) as [[v l] b]. cbn [fst snd] in X. destruct X as (-> & ->). eexists. split; [reflexivity|].
  intros k u U E. assert (UU : dot u u = 1) by (rewrite <- norm_sq, U; ring). destruct u as [a b c]. unfold eigen, mirror in E. revert E. spec_unfold_g. intros E. injection E as E1 E2 E3. unfold dot in UU. cbn [vx vy vz] in UU.
  destruct (Req_dec a 0) as [->|A]; [|left; apply (Rmult_eq_reg_r a); [lra|exact A]]. destruct (Req_dec b 0) as [->|B]; [|right; left; apply (Rmult_eq_reg_r b); [lra|exact B]]. right; right. apply (Rmult_eq_reg_r c); [lra|]. intros ->. lra.
Qed.
(** a well-conditioned matrix has its inverse computed, so the factor of least magnitude is found *)
Theorem power_least m u1 u2 u3 l1 l2 l3 s junk old c : spectrum m u1 u2 u3 l1 l2 l3 -> well_conditioned m -> 0 < Rabs l1 -> Rabs l1 < Rabs l2 -> Rabs l1 < Rabs l3 -> ~ negligible s -> 0 < c -> c * norm s <= Rabs (dot u1 s) -> 4 * zTOL * Rabs l1 <= c ->
  exists N, forall n, (N <= n)%nat -> exists v e, zMat3DEigPowerInv n m s junk old = Some (v, e, true) /\ Rabs (v - l1) * c <= 4 * zTOL * Rsqr l1 /\ (exists u, norm u = 1 /\ norm (vsub e u) <= 4 * zTOL * Rabs l1) /\
    (forall g, 4 * zTOL <= g * c -> g <= Rabs (/ l1 - / l2) -> g <= Rabs (/ l1 - / l3) -> dot u2 e * dot u2 e + dot u3 e * dot u3 e <= (7 * zTOL / g) * (7 * zTOL / g)).
Proof.
  intros SP WC. destruct (inv_complete m old WC) as (im & IV & _). apply (power_inv m old im); assumption.
Qed.
(** the vector found for the least magnitude comes from the inverse *)
Lemma spectrum_det m u1 u2 u3 l1 l2 l3 : spectrum m u1 u2 u3 l1 l2 l3 -> l1 = 0 -> forall n s junk old, zMat3DEigPowerInv n m s junk old = None.
Proof.
  intros SP Z n s junk old. apply power_inv_singular. destruct SP as (A & _ & _ & _ & _ & _ & X & _). unfold eigen in X. rewrite Z in X.
  destruct (Req_dec (mdet m) 0) as [D|D]; [exact D|exfalso].
  assert (G : vscale (mdet m) u1 = v3zero).
  { transitivity (mvec (mtr (cols3 (cross (col1 m) (col2 m)) (cross (col2 m) (col0 m)) (cross (col0 m) (col1 m)))) (mvec m u1)); [destruct m, u1; spec_unfold_g; f_equal; ring|]. rewrite X. destruct m, u1. spec_unfold_g. f_equal; ring. }
  destruct u1 as [xa xb xc]. unfold vscale, v3zero in G. cbn [vx vy vz] in G. injection G as G1 G2 G3. apply Rmult_integral in G1, G2, G3. unfold dot in A. cbn [vx vy vz] in A. destruct G1, G2, G3; try contradiction. subst. lra.
Qed.
Theorem power_near_any m u1 u2 u3 l1 l2 l3 n s junk l e : spectrum m u1 u2 u3 l1 l2 l3 -> ~ negligible s -> zMat3DEigPower n m s junk = (l, e, true) ->
  Rabs (l - l1) < 2 * zTOL \/ Rabs (l - l2) < 2 * zTOL \/ Rabs (l - l3) < 2 * zTOL.
Proof.
  intros SP. apply (power_near m u1 u2 u3 l1 l2 l3 SP).
Qed.

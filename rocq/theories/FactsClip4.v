(** Triangulation: the main dichotomy, convex loops, a failure, alignment *)
From Verif Require Import Base Spec SpecGeom SpecHull SpecClip SpecCol ModelVec ModelElem ModelClip FactsVec FactsAlg FactsElem FactsSat FactsCol3 FactsClip FactsClip2 FactsClip3.
From Coq Require Import List Lia Lra ZArith.
Import ListNotations.
Open Scope R_scope.

Lemma plane_cross n x y : n <> v3zero -> dot n x = 0 -> dot n y = 0 -> cross x y = vscale (dot n (cross x y) / dot n n) n.
Proof.
  intros N X Y. assert (Z : cross n (cross x y) = v3zero). { replace (cross n (cross x y)) with (vsub (vscale (dot n y) x) (vscale (dot n x) y)) by (apply vec3_ext; spec_unfold; ring). rewrite X, Y. apply vec3_ext; spec_unfold; ring. }
  destruct (cross_zero_parallel _ _ N Z) as (k & ->). pose proof (dot_zero_norm n N). f_equal. replace (dot n (vscale k n)) with (k * dot n n) by (clear; spec_unfold; ring). field. lra.
Qed.
Lemma normalize_scale v : exists k, snd (zVec3DNormalizeDRC v) = vscale k v.
Proof.
  unfold zVec3DNormalizeDRC, zVec3DNormalize. destruct (zVec3DIsTiny v); cbn [snd]; [exists 1; apply vec3_ext; spec_unfold; ring|]. exists (1 / norm v). zvg. reflexivity.
Qed.
Lemma extreme_lt : forall l i st x, (st < i + length l)%nat -> (xExtreme i st x l < i + length l)%nat.
Proof. induction l as [|v r IH]; intros i st x H; cbn [xExtreme]; [exact H|]. cbn [length] in *. destruct (Rltb (vx v) x); rewrite Nat.add_succ_r in *; apply (IH (S i)); lia. Qed.
Lemma reduces_tiled o n l ts l' : planar o n l -> reduces n l ts l' -> (length l' <= 2)%nat -> tiled o n l ts.
Proof.
  intros P R L. split; [intros a b c I; destruct (reduces_in _ _ _ _ R) as (_ & H); apply (H a b c I)|]. split; [exact (area_sum n l l' ts R L)|]. intros w p W Hp. split; [|split].
  - intros Z. exact (cover o n l l' ts P R L w p Hp Z).
  - intros Z t I. exact (excess o n l l' ts P R L w p t W Hp Z I).
  - intros Z r t s t' z E. exact (overlap o n l l' ts P R L w p r t s t' z W Hp Z E).
Qed.
Lemma extreme_ok l : forall r i st x, (forall j, (j < length r)%nat -> nth j r v3zero = nth (i + j) l v3zero) -> length l = (i + length r)%nat -> (st < i)%nat \/ (i = 0 /\ st = 0 /\ r <> [])%nat -> x = vx (nth st l v3zero) ->
  (forall j, (j < st)%nat -> x < vx (nth j l v3zero)) -> (forall j, (st < j < i)%nat -> x <= vx (nth j l v3zero)) -> leftmost l (xExtreme i st x r).
Proof.
  induction r as [|v r IH]; intros i st x E Ln B X H K; cbn [xExtreme].
  - cbn in Ln. destruct B as [B|(_ & _ & B)]; [|congruence]. split; [lia|]. rewrite <- X. split; [exact H|]. intros j J. apply K. lia.
  - assert (Ev : v = nth i l v3zero) by (specialize (E 0%nat ltac:(cbn; lia)); cbn in E; rewrite Nat.add_0_r in E; exact E).
    assert (E' : forall j, (j < length r)%nat -> nth j r v3zero = nth (S i + j) l v3zero) by (intros j J; specialize (E (S j) ltac:(cbn; lia)); cbn in E; rewrite E; f_equal; lia).
    destruct (Rltb_reflect (vx v) x) as [Q|Q].
    + apply IH; [exact E'|cbn in Ln; lia|left; lia|rewrite Ev; reflexivity| |intros; lia]. intros j J. destruct (Nat.eq_dec j st) as [->|N1]; [rewrite <- X; exact Q|]. destruct (Nat.lt_ge_cases j st) as [L|L]; [specialize (H j L); lra|]. specialize (K j ltac:(lia)). lra.
    + apply IH; [exact E'|cbn in Ln; lia|left; lia|exact X|exact H|]. intros j J. destruct (Nat.eq_dec j i) as [->|N1]; [rewrite <- Ev; lra|]. apply K. lia.
Qed.
(** the reference normal is that of the leftmost corner, up to its length *)
Lemma norm_extreme v r : exists i k, leftmost (v :: r) i /\ 0 < k /\ zLoop3DTriangulateNorm v r = vscale k (corner_normal (v :: r) i).
Proof.
  unfold zLoop3DTriangulateNorm. cbv zeta. set (l := v :: r) in *. set (st := xExtreme 0 0 (vx v) l). set (i := if Nat.eqb st 0 then _ else _). set (j := if Nat.eqb st (_ - 1) then _ else _).
  assert (Lm : leftmost l st) by (unfold st; apply (extreme_ok l l 0 0 (vx v)); [reflexivity|reflexivity|right; repeat split; discriminate|reflexivity|intros; lia|intros; lia]).
  assert (B : (st < length l)%nat) by apply Lm. assert (Z0 : (0 < length l)%nat) by (cbn; lia).
  assert (Bi : i = ((st + length l - 1) mod length l)%nat). { unfold i. destruct (Nat.eqb_spec st 0) as [Z1|Q]; [rewrite Nat.mod_small; lia|]. replace (st + length l - 1)%nat with (st - 1 + 1 * length l)%nat by lia. rewrite Nat.mod_add by lia. rewrite Nat.mod_small; lia. }
  assert (Bj : j = ((st + 1) mod length l)%nat). { unfold j. destruct (Nat.eqb_spec st (length l - 1)) as [Q|Q]; [replace (st + 1)%nat with (length l) by lia; rewrite Nat.mod_same; lia|rewrite Nat.mod_small; lia]. }
  exists st. set (c := zVec3DOuterProd _ _). assert (Ec : c = corner_normal l st).
  { unfold c, corner_normal. cbv zeta. rewrite <- Bi, <- Bj. rewrite !(nth_indep l v v3zero) by (try exact B; rewrite ?Bi, ?Bj; apply Nat.mod_upper_bound; lia). zvg. reflexivity. }
  unfold zVec3DNormalizeDRC, zVec3DNormalize. destruct (zVec3DIsTiny c) eqn:T; cbn [snd].
  - exists 1. split; [exact Lm|]. split; [lra|]. rewrite <- Ec. apply vec3_ext; spec_unfold; ring.
  - exists (1 / norm c). split; [exact Lm|]. split; [|rewrite <- Ec; zvg; reflexivity]. apply Rdiv_lt_0_compat; [lra|]. destruct (Rle_lt_or_eq_dec _ _ (norm_nonneg c)) as [K|K]; [exact K|]. exfalso. symmetry in K. apply norm_zero_iff in K. assert (zVec3DIsTiny c = true) by (apply tiny_below3; rewrite K; unfold below, v3zero; cbn [vx vy vz]; rewrite Rabs_R0; pose proof zTOL_pos; auto). congruence.
Qed.
(** a positive factor of the normal does not matter *)
Lemma accept_factor k n t : 0 < k -> Rltb 0 (zVec3DInnerProd t (vscale k n)) = Rltb 0 (zVec3DInnerProd t n).
Proof.
  intros K. zvg. replace (dot t (vscale k n)) with (k * dot t n) by (spec_unfold; ring). destruct (Rltb_reflect 0 (k * dot t n)) as [A|A], (Rltb_reflect 0 (dot t n)) as [B|B]; try reflexivity; exfalso; [apply B, (Rmult_lt_reg_l k); lra|apply A, Rmult_lt_0_compat; assumption].
Qed.
Lemma scan_factor k n : 0 < k -> forall aft bef vp t, clipScan (vscale k n) bef vp aft t = clipScan n bef vp aft t.
Proof. intros K. induction aft as [|p aft IH]; intros bef vp t; [reflexivity|]. cbn [clipScan]. rewrite (accept_factor k n _ K). destruct (_ && _)%bool; [reflexivity|apply IH]. Qed.
Lemma loop_factor k n : 0 < k -> forall fuel l, clipLoop fuel (vscale k n) l = clipLoop fuel n l.
Proof. intros K. induction fuel as [|f IH]; intros l; cbn [clipLoop]; [reflexivity|]. destruct (Nat.leb (length l) 2); [reflexivity|]. destruct l as [|v r]; [reflexivity|]. rewrite (scan_factor k n K). destruct (clipScan n [] v r None) as ([t|] & l'); [rewrite IH; reflexivity|reflexivity]. Qed.
Lemma corner_plane o m l i : planar o m l -> (i < length l)%nat -> exists k, corner_normal l i = vscale k m.
Proof.
  intros (N & P) I. assert (Q : forall a b, (a < length l)%nat -> (b < length l)%nat -> dot m (vsub (nth a l v3zero) (nth b l v3zero)) = 0).
  { intros a b A C. replace (dot m (vsub (nth a l v3zero) (nth b l v3zero))) with (dot m (vsub (nth a l v3zero) o) - dot m (vsub (nth b l v3zero) o)) by (spec_unfold; ring). rewrite !P by (apply nth_In; assumption). ring. }
  eexists. unfold corner_normal. cbv zeta. apply plane_cross; [exact N| |]; apply Q; try exact I; apply Nat.mod_upper_bound; lia.
Qed.
Lemma planar_factor o m k l : k <> 0 -> planar o m l -> planar o (vscale k m) l.
Proof.
  intros K (Z & H). split.
  - intros E. apply Z. replace m with (vscale (/ k) (vscale k m)); [rewrite E; apply vec3_ext; spec_unfold; ring|]. apply vec3_ext; spec_unfold; field; exact K.
  - intros p I. replace (dot (vscale k m) (vsub p o)) with (k * dot m (vsub p o)) by (spec_unfold; ring). rewrite (H p I). ring.
Qed.
Lemma triangulate_main o m l : l <> [] -> planar o m l -> exists ts i, zLoop3DTriangulate l = Some ts /\ leftmost l i /\ let n := corner_normal l i in
  (n <> v3zero -> tiled o n l (map cornersOf ts) \/ exists done rest l', ts = done ++ rest /\ reduces n l (map cornersOf done) l' /\ earless n l').
Proof.
  destruct l as [|v r]; [congruence|]. intros _ P. destruct (norm_extreme v r) as (i & k & Lm & K & E). cbn [zLoop3DTriangulate]. rewrite E, (loop_factor k _ K). set (n := corner_normal (v :: r) i). destruct (run n (length (v :: r)) (v :: r) (Nat.le_refl _)) as (ts & Et & Rn). exists ts, i. split; [exact Et|]. split; [exact Lm|]. cbv zeta. fold n. intros Nz.
  destruct Rn as [(l' & R & L)|H]; [|right; exact H]. left. eapply reduces_tiled; [|exact R|exact L]. destruct (corner_plane o m (v :: r) i P) as (q & Eq); [apply Lm|]. fold n in Eq. rewrite Eq. apply planar_factor; [|exact P]. intros ->. apply Nz. rewrite Eq. apply vec3_ext; spec_unfold; ring.
Qed.
(** ** convex loops *)
Lemma tip_order n l u v x o l1 : convex_order n l -> tip_of l u v x o l1 -> convex_order n l1.
Proof.
  intros H C. assert (F : exists f, (forall i j, (i < j)%nat -> (f i < f j)%nat) /\ forall i, (i < length l1)%nat -> nth i l1 v3zero = nth (f i) l v3zero /\ (f i < length l)%nat).
  { destruct C as [v x m u|p u v x s].
    - exists S. split; [intros; lia|]. intros i I. split; [reflexivity|cbn in *; lia].
    - exists (fun i => if Nat.ltb i (length p + 1) then i else S i). split; [intros i j I; destruct (Nat.ltb_spec i (length p + 1)), (Nat.ltb_spec j (length p + 1)); lia|]. intros i I. rewrite app_length in I. cbn in I. rewrite app_length. cbn [length]. destruct (Nat.ltb_spec i (length p + 1)) as [K|K]; (split; [|lia]).
      + destruct (Nat.eq_dec i (length p)) as [->|Ne]; [rewrite !app_nth2, !Nat.sub_diag by lia; reflexivity|]. rewrite !app_nth1 by lia. reflexivity.
      + rewrite !app_nth2 by lia. replace (S i - length p)%nat with (S (i - length p)) by lia. destruct (i - length p)%nat eqn:Q; [lia|]. reflexivity. }
  destruct F as (f & M & E). intros i j k (I & J) K. destruct (E i ltac:(lia)) as (E1 & B1). destruct (E j ltac:(lia)) as (E2 & B2). destruct (E k ltac:(lia)) as (E3 & B3). cbv zeta. rewrite E1, E2, E3. apply H; [split; apply M; assumption|exact B3].
Qed.
Lemma reduces_order n l ts l' : reduces n l ts l' -> convex_order n l -> convex_order n l'.
Proof. induction 1 as [l|l u v x o l1 ts l' C E H IH]; intros K; [exact K|]. apply IH, (tip_order _ _ _ _ _ _ _ K C). Qed.
Lemma spin_cycle n a b c : spin n b c a = spin n a b c.
Proof. unfold spin. spec_unfold. ring. Qed.
Lemma below_norm v : below v -> norm v < 2 * zTOL.
Proof.
  intros (A & B & C). pose proof zTOL_pos as T. apply Rsqr_incrst_0; [|apply norm_nonneg|lra]. unfold Rsqr. rewrite norm_sqr. apply Rabs_def2 in A, B, C. unfold dot. nra.
Qed.
Lemma cross_norm_le a b : norm (cross a b) <= norm a * norm b.
Proof.
  apply Rsqr_incr_0_var; [|apply Rmult_le_pos; apply norm_nonneg]. unfold Rsqr. replace (norm a * norm b * (norm a * norm b)) with ((norm a * norm a) * (norm b * norm b)) by ring. rewrite !norm_sqr.
  replace (dot (cross a b) (cross a b)) with (dot a a * dot b b - dot a b * dot a b) by (spec_unfold; ring). nra.
Qed.
Lemma convex_not_earless n l : norm n = 1 -> convex_order n l -> ~ earless n l.
Proof.
  intros U H (L & E). destruct l as [|v [|x l]]; [cbn in L; lia|cbn in L; lia|]. destruct (@exists_last _ l) as (m & u & ->); [intros ->; cbn in L; lia|]. apply (E u v x m (x :: m ++ [u]) (tip_first v x m u)).
  assert (Ln : length (v :: x :: m ++ [u]) = (length m + 3)%nat) by (cbn; rewrite app_length; cbn; lia).
  assert (Nu : nth (length m + 2) (v :: x :: m ++ [u]) v3zero = u). { replace (length m + 2)%nat with (S (S (length m))) by lia. cbn [nth]. rewrite app_nth2, Nat.sub_diag by lia. reflexivity. }
  split; [|split].
  - destruct (H 0%nat 1%nat (length m + 2)%nat ltac:(lia) ltac:(lia)) as (S & _). cbv zeta in S. rewrite Nu in S. cbn [nth] in S. pose proof zTOL_pos. rewrite <- spin_cycle. lra.
  - intros B. apply below_norm in B. destruct (H 0%nat 1%nat (length m + 2)%nat ltac:(lia) ltac:(lia)) as (S & _). cbv zeta in S. rewrite Nu in S. cbn [nth] in S.
    assert (Q : spin n u v x <= norm (cross (vsub v u) (vsub x v))). { rewrite spin_outer. eapply Rle_trans; [apply dot_le_norm|]. rewrite U. lra. }
    rewrite <- spin_cycle in Q. lra.
  - intros q I (y & (s0 & s1 & s2 & (P0 & P1 & P2 & Sm) & Ey) & D). destruct (In_nth _ _ v3zero I) as (i & Li & Ni).
    assert (Nq : nth (i + 2) (v :: x :: m ++ [u]) v3zero = q). { replace (i + 2)%nat with (S (S i)) by lia. cbn [nth]. rewrite app_nth1 by lia. exact Ni. }
    destruct (H 1%nat (i + 2)%nat (length m + 2)%nat ltac:(lia) ltac:(lia)) as (_ & S). cbv zeta in S. rewrite Nu, Nq in S. cbn [nth] in S.
    destruct (H 0%nat 1%nat (length m + 2)%nat ltac:(lia) ltac:(lia)) as (S2 & _). cbv zeta in S2. rewrite Nu in S2. cbn [nth] in S2. pose proof zTOL_pos as T.
    assert (Y : 0 <= spin n x u y). { replace (spin n x u y) with (s1 * spin n v x u) by (rewrite Ey; replace s1 with (1 - s0 - s2) by lra; unfold spin, comb3, comb2; spec_unfold; ring). apply Rmult_le_pos; lra. }
    assert (G : spin n x u y - spin n x u q <= dist x u * dist q y).
    { replace (spin n x u y - spin n x u q) with (dot n (cross (vsub u x) (vsub y q))) by (unfold spin; spec_unfold; ring). eapply Rle_trans; [apply dot_le_norm|]. rewrite U, Rmult_1_l. eapply Rle_trans; [apply cross_norm_le|]. rewrite <- (dist_vsub x u), <- (dist_vsub q y). lra. }
    assert (X : spin n x u q = - spin n x q u) by (unfold spin; spec_unfold; ring). assert (0 <= dist x u) by apply norm_nonneg. assert (dist x u * dist q y <= dist x u * zTOL) by (apply Rmult_le_compat_l; lra).
    assert (dist x u = 0 \/ 0 < dist x u) as [Z|Z] by lra; [|assert (dist x u * dist q y < dist x u * zTOL) by (apply Rmult_lt_compat_l; lra); lra].
    unfold dist in Z. apply norm_zero_iff in Z. assert (spin n v x u = 0); [|lra]. replace (spin n v x u) with (dot n (cross (vsub x v) (vsub (vsub x v) (vsub x u)))) by (unfold spin; spec_unfold; ring). rewrite Z. spec_unfold. ring.
Qed.
Lemma norm_convex o m v r : norm m = 1 -> planar o m (v :: r) -> convex_order m (v :: r) -> (3 <= length (v :: r))%nat -> zLoop3DTriangulateNorm v r = m.
Proof.
  intros U (N & P) H L. unfold zLoop3DTriangulateNorm. cbv zeta. set (l := v :: r) in *. set (st := xExtreme 0 0 (vx v) l). set (i := if Nat.eqb st 0 then _ else _). set (j := if Nat.eqb st (_ - 1) then _ else _).
  assert (B : (st < length l)%nat) by (apply (extreme_lt l 0 0 (vx v)); cbn; lia).
  assert (Bi : (i < length l)%nat) by (unfold i; destruct (Nat.eqb_spec st 0); lia). assert (Bj : (j < length l)%nat) by (unfold j; destruct (Nat.eqb_spec st (length l - 1)); lia).
  assert (Q : forall a b, (a < length l)%nat -> (b < length l)%nat -> dot m (vsub (nth a l v) (nth b l v)) = 0).
  { intros a b A C. replace (dot m (vsub (nth a l v) (nth b l v))) with (dot m (vsub (nth a l v) o) - dot m (vsub (nth b l v) o)) by (spec_unfold; ring). rewrite !P by (apply nth_In; assumption). ring. }
  assert (S : 2 * zTOL <= spin m (nth st l v) (nth j l v) (nth i l v)).
  { rewrite !(nth_indep l v v3zero) by assumption. unfold i, j. destruct (Nat.eqb_spec st 0) as [Z|Z], (Nat.eqb_spec st (length l - 1)) as [Y|Y]; [lia| | |].
    - rewrite Z. apply (H 0%nat 1%nat (length l - 1)%nat); lia.
    - rewrite Y. rewrite <- spin_cycle. apply (H 0%nat (length l - 1 - 1)%nat (length l - 1)%nat); lia.
    - rewrite spin_cycle. apply (H (st - 1)%nat st (st + 1)%nat); lia. }
  set (c := zVec3DOuterProd _ _). assert (Ec : c = cross (vsub (nth j l v) (nth st l v)) (vsub (nth i l v) (nth st l v))) by (unfold c; zvg; reflexivity).
  rewrite (plane_cross m) in Ec; [|exact N|apply Q; assumption|apply Q; assumption]. change (dot m (cross _ _)) with (spin m (nth st l v) (nth j l v) (nth i l v)) in Ec. set (s := spin m _ _ _) in *.
  assert (M1 : dot m m = 1) by (rewrite <- norm_sqr, U; ring). rewrite M1 in Ec. replace (s / 1) with s in Ec by field. pose proof zTOL_pos as T.
  assert (Nc : norm c = s) by (rewrite Ec, norm_scale, U, Rabs_right by lra; ring).
  unfold zVec3DNormalizeDRC, zVec3DNormalize. destruct (zVec3DIsTiny c) eqn:E; [apply tiny_below3, below_norm in E; lra|]. cbn [snd]. zvg. rewrite Nc, Ec. apply vec3_ext; spec_unfold; field; lra.
Qed.
Lemma triangulate_convex o m l : norm m = 1 -> planar o m l -> (3 <= length l)%nat -> convex_order m l -> exists ts, zLoop3DTriangulate l = Some ts /\ length ts = (length l - 2)%nat /\ tiled o m l (map cornersOf ts).
Proof.
  intros U P L H. destruct l as [|v r]; [cbn in L; lia|]. cbn [zLoop3DTriangulate]. rewrite (norm_convex o m v r U P H L). destruct (run m (length (v :: r)) (v :: r) (Nat.le_refl _)) as (ts & E & R). destruct (clip_count m (length (v :: r)) (v :: r) (Nat.le_refl _)) as (ts' & E' & C & _). assert (ts' = ts) by congruence. subst ts'.
  exists ts. split; [exact E|]. split; [exact C|]. destruct R as [(l' & R & L')|(dn & rs & l' & _ & R & Z)]; [eapply reduces_tiled; eassumption|]. exfalso. apply (convex_not_earless m l' U); [eapply reduces_order; eassumption|exact Z].
Qed.

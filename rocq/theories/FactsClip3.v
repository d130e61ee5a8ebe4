(** Triangulation: ears and the partition *)
From Verif Require Import Base Spec SpecGeom SpecHull SpecClip SpecCol ModelVec ModelElem ModelClip FactsVec FactsAlg FactsElem FactsSat FactsCol3 FactsClip FactsClip2.
From Coq Require Import List Lia Lra ZArith.
Import ListNotations.
Open Scope R_scope.

(** ** what the acceptance test says *)
Lemma tiny_below3 v : zVec3DIsTiny v = true <-> below v.
Proof. unfold zVec3DIsTiny, zVec3DIsTol, below. rewrite !Bool.andb_true_iff. unfold zIsTol. rewrite !Rltb_true. tauto. Qed.
Lemma create_norm u v x : let t := snd (zTri3DCreate u v x) in exists k, 0 < k /\ tnorm t = vscale k (cross (vsub v u) (vsub x v)).
Proof.
  unfold zTri3DCreate, triOuterProd. cbv zeta. set (c := zVec3DOuterProd _ _). assert (Ec : c = cross (vsub v u) (vsub x v)) by (unfold c; zvg; reflexivity). destruct (zVec3DIsTiny c) eqn:T; cbn [snd tnorm].
  - exists 1. split; [lra|]. rewrite Ec. apply vec3_ext; spec_unfold; ring.
  - unfold zVec3DNormalizeDRC, zVec3DNormalize. rewrite T. cbn [snd]. exists (1 / norm c). split.
    + apply Rdiv_lt_0_compat; [lra|]. destruct (Rle_lt_or_eq_dec _ _ (norm_nonneg c)) as [K|K]; [exact K|]. exfalso. symmetry in K. apply norm_zero_iff in K. assert (zVec3DIsTiny c = true) by (apply tiny_below3; rewrite K; unfold below, v3zero; cbn [vx vy vz]; rewrite Rabs_R0; pose proof zTOL_pos; auto). congruence.
    + rewrite <- Ec. zvg. reflexivity.
Qed.
Lemma spin_outer n u v x : spin n u v x = dot n (cross (vsub v u) (vsub x v)).
Proof. unfold spin. spec_unfold. ring. Qed.
Lemma accept_spin n u v x : Rltb 0 (zVec3DInnerProd (tnorm (snd (zTri3DCreate u v x))) n) = true <-> 0 < spin n u v x.
Proof.
  rewrite Rltb_true, spin_outer. destruct (create_norm u v x) as (k & K & E). cbv zeta in E. rewrite E. zvg. replace (dot (vscale k (cross (vsub v u) (vsub x v))) n) with (k * dot n (cross (vsub v u) (vsub x v))) by (clear; spec_unfold; ring).
  split; intros H; [|apply Rmult_lt_0_compat; assumption]. apply (Rmult_lt_reg_l k); lra.
Qed.
Lemma check_near u v x q : ~ below (cross (vsub v u) (vsub x v)) -> zTri3DPointIsInside (snd (zTri3DCreate u v x)) q zTOL = true <-> near_triangle u v x q.
Proof.
  intros B. assert (E : zTri3DCreate u v x = (true, snd (zTri3DCreate u v x))).
  { unfold zTri3DCreate, triOuterProd. cbv zeta. destruct (zVec3DIsTiny _) eqn:T; [|reflexivity]. exfalso. apply B. apply tiny_below3 in T. revert T. zvg. auto. }
  rewrite (inside_within u v x _ q zTOL E). reflexivity.
Qed.
Lemma check_all u v x o : ~ below (cross (vsub v u) (vsub x v)) -> zLoop3DTriangulateCheck (snd (zTri3DCreate u v x)) o = true <-> forall q, List.In q o -> ~ near_triangle u v x q.
Proof.
  intros B. unfold zLoop3DTriangulateCheck. rewrite forallb_forall. split; intros H q I.
  - intros K. apply (check_near u v x q B) in K. specialize (H q I). rewrite K in H. discriminate.
  - destruct (zTri3DPointIsInside _ q zTOL) eqn:E; [|reflexivity]. exfalso. apply (H q I), (check_near u v x q B), E.
Qed.
Definition accepts (n u v x : vec3) (o : list vec3) : bool := Rltb 0 (zVec3DInnerProd (tnorm (snd (zTri3DCreate u v x))) n) && zLoop3DTriangulateCheck (snd (zTri3DCreate u v x)) o.
Lemma below_dec v : below v \/ ~ below v.
Proof. destruct (zVec3DIsTiny v) eqn:T; [left; apply tiny_below3, T|right; intros B; apply tiny_below3 in B; congruence]. Qed.
Lemma accepts_cut n u v x o : accepts n u v x o = true -> cuttable n u v x o.
Proof. unfold accepts. rewrite Bool.andb_true_iff, accept_spin. intros (S & C). split; [exact S|]. intros B. apply (check_all u v x o B), C. Qed.
Lemma rejects_ear n u v x o : accepts n u v x o = false -> ~ ear n u v x o.
Proof. intros F (S & B & H). assert (accepts n u v x o = true); [|congruence]. unfold accepts. rewrite Bool.andb_true_iff, accept_spin. split; [exact S|apply (check_all u v x o B), H]. Qed.
(** ** the scan *)
(** the corner at the end of [rev bef ++ [v]] with [x :: s] after it *)
Definition at_corner (bef : list vec3) (v x : vec3) (s : list vec3) (u : vec3) (o : list vec3) : Prop :=
  u = match bef with y :: _ => y | [] => last (x :: s) v end /\ o = otherCorners bef s.
Lemma at_tip_of bef v x s u o : (2 <= length bef + length (x :: s))%nat -> at_corner bef v x s u o -> tip_of (rev bef ++ v :: x :: s) u v x o (rev bef ++ x :: s).
Proof.
  intros L (-> & ->). destruct bef as [|y b].
  - cbn [rev app otherCorners]. destruct (@exists_last _ s) as (m & z & ->); [intros ->; cbn in L; lia|]. rewrite app_comm_cons, last_last, removelast_last. apply tip_first.
  - cbn [rev otherCorners]. rewrite <- !app_assoc. cbn [app]. apply tip_middle.
Qed.
Lemma app_same {A} (a c b d : list A) : length a = length c -> a ++ b = c ++ d -> a = c /\ b = d.
Proof. revert c. induction a as [|x a IH]; intros [|y c] L H; cbn in *; try discriminate; [auto|]. injection H as -> H. destruct (IH c) as (-> & ->); [lia|exact H|auto]. Qed.
(** a scan succeeds at the first acceptable corner, or every corner but the last was refused *)
Lemma scan_cases n : forall aft bef vp t, (3 <= length bef + 1 + length aft)%nat ->
  (exists p v x s u o, rev bef ++ vp :: aft = p ++ v :: x :: s /\ tip_of (p ++ v :: x :: s) u v x o (p ++ x :: s) /\ accepts n u v x o = true /\ clipScan n bef vp aft t = (Some (snd (zTri3DCreate u v x)), p ++ x :: s)) \/
  (forall p v x s, rev bef ++ vp :: aft = p ++ v :: x :: s -> (length bef <= length p)%nat -> accepts n (match rev p with y :: _ => y | [] => last (x :: s) v end) v x (otherCorners (rev p) s) = false).
Proof.
  induction aft as [|pst aft IH]; intros bef vp t L.
  - right. intros p v x s E H. exfalso. apply (f_equal (@length vec3)) in E. rewrite !app_length, rev_length in E. cbn in E. lia.
  - cbn [clipScan]. set (pre := match bef with u :: _ => u | [] => last (pst :: aft) vp end). change (Rltb 0 (zVec3DInnerProd (tnorm (snd (zTri3DCreate pre vp pst))) n) && zLoop3DTriangulateCheck (snd (zTri3DCreate pre vp pst)) (otherCorners bef aft))%bool with (accepts n pre vp pst (otherCorners bef aft)).
    destruct (accepts n pre vp pst (otherCorners bef aft)) eqn:A.
    + left. exists (rev bef), vp, pst, aft, pre, (otherCorners bef aft). split; [reflexivity|]. split; [|split; [exact A|reflexivity]]. apply at_tip_of; [cbn in *; lia|]. split; reflexivity.
    + destruct (IH (vp :: bef) pst (Some (snd (zTri3DCreate pre vp pst)))) as [(p & v & x & s & u & o & E & C & K & S)|H]; [cbn in *; lia| |].
      * left. exists p, v, x, s, u, o. split; [rewrite <- E; cbn [rev]; rewrite <- app_assoc; reflexivity|]. auto.
      * right. intros p v x s E Lp. destruct (Nat.eq_dec (length p) (length bef)) as [Q|Q].
        { assert (Ep : rev bef = p /\ vp :: pst :: aft = v :: x :: s). { apply app_same; [rewrite rev_length; lia|exact E]. }
          destruct Ep as (<- & Ev). injection Ev as <- <- <-. rewrite rev_involutive. exact A. }
        { apply H; [rewrite <- E; cbn [rev]; rewrite <- app_assoc; reflexivity|cbn; lia]. }
Qed.
Lemma scan_dichotomy n vp aft : (3 <= length (vp :: aft))%nat ->
  (exists u v x o l1, tip_of (vp :: aft) u v x o l1 /\ accepts n u v x o = true /\ clipScan n [] vp aft None = (Some (snd (zTri3DCreate u v x)), l1)) \/ earless n (vp :: aft).
Proof.
  intros L. destruct (scan_cases n aft [] vp None) as [(p & v & x & s & u & o & E & C & K & S)|H]; [cbn in *; lia| |].
  - left. cbn [rev app] in E. rewrite <- E in C. exists u, v, x, o, (p ++ x :: s). auto.
  - right. split; [exact L|]. intros u v x o l1 C. apply rejects_ear. remember (vp :: aft) as l eqn:El. destruct C as [v x m u|p u v x s].
    + specialize (H [] v x (m ++ [u]) eq_refl (Nat.le_refl _)). cbn [rev] in H. rewrite app_comm_cons, last_last in H. cbn [otherCorners] in H. rewrite removelast_last in H. exact H.
    + specialize (H (p ++ [u]) v x s). cbn [rev app] in H. rewrite <- app_assoc in H. cbn [app] in H. specialize (H eq_refl ltac:(cbn; lia)). rewrite rev_unit in H. cbn [otherCorners] in H. rewrite rev_involutive in H. exact H.
Qed.
(** ** the whole run *)
Lemma corner_len l u v x o l1 : tip_of l u v x o l1 -> length l = S (length l1) /\ incl l1 l /\ List.In u l /\ List.In v l /\ List.In x l.
Proof.
  destruct 1 as [v x m u|p u v x s].
  - split; [reflexivity|]. split; [intros y I; right; exact I|]. split; [right; right; apply in_or_app; right; left; reflexivity|]. cbn. auto.
  - split; [rewrite !app_length; cbn; lia|]. split; [intros y I; apply in_app_or in I; apply in_or_app; cbn in *; tauto|]. repeat split; apply in_or_app; right; cbn; auto.
Qed.
Lemma run n : forall fuel l, (length l <= fuel)%nat -> exists ts, clipLoop fuel n l = Some ts /\
  ((exists l', reduces n l (map cornersOf ts) l' /\ (length l' <= 2)%nat) \/ (exists done rest l', ts = done ++ rest /\ reduces n l (map cornersOf done) l' /\ earless n l')).
Proof.
  induction fuel as [|k IH]; intros l H; cbn [clipLoop]; destruct (Nat.leb_spec (length l) 2) as [Q|Q]; try (exists []; split; [reflexivity|left; exists l; split; [constructor|exact Q]]); [lia|].
  destruct l as [|vp aft]; [cbn in Q; lia|]. destruct (scan_dichotomy n vp aft) as [(u & v & x & o & l1 & C & A & S)|Z]; [lia| |].
  - rewrite S. destruct (corner_len _ _ _ _ _ _ C) as (Ln & _). destruct (IH l1) as (ts & E & R); [lia|]. rewrite E. exists (snd (zTri3DCreate u v x) :: ts). split; [reflexivity|].
    assert (Ct : cornersOf (snd (zTri3DCreate u v x)) = (u, v, x)) by (unfold cornersOf; destruct (create_corners u v x) as (-> & -> & ->); reflexivity).
    destruct R as [(l' & R & L')|(dn & rs & l' & -> & R & Z)].
    + left. exists l'. split; [|exact L']. cbn [map]. rewrite Ct. eapply reduces_cut; [exact C|apply accepts_cut, A|exact R].
    + right. exists (snd (zTri3DCreate u v x) :: dn), rs, l'. split; [reflexivity|]. split; [|exact Z]. cbn [map]. rewrite Ct. eapply reduces_cut; [exact C|apply accepts_cut, A|exact R].
  - destruct (clip_count n (S k) (vp :: aft) H) as (ts & E & _). cbn [clipLoop] in E. destruct (Nat.leb_spec (length (vp :: aft)) 2) as [Q2|_]; [lia|]. exists ts. split; [exact E|]. right. exists [], ts, (vp :: aft). split; [reflexivity|]. split; [constructor|exact Z].
Qed.
(** ** a reduction to two corners is a partition *)
Definition twice (n : vec3) (t : corners) : R := let '(a, b, c) := t in spin n a b c.
Lemma reduces_in n l ts l' : reduces n l ts l' -> incl l' l /\ forall a b c, List.In (a, b, c) ts -> List.In a l /\ List.In b l /\ List.In c l /\ 0 < spin n a b c.
Proof.
  induction 1 as [l|l u v x o l1 ts l' C E H IH]; [split; [apply incl_refl|intros a b c []]|]. destruct (corner_len _ _ _ _ _ _ C) as (_ & I & Iu & Iv & Ix). destruct IH as (I1 & I2). split; [eapply incl_tran; eassumption|].
  intros a b c [J|J]; [injection J as <- <- <-; split; [exact Iu|]; split; [exact Iv|]; split; [exact Ix|]; apply E|]. destruct (I2 a b c J) as (A & B & D & S). auto.
Qed.
Definition windsum (n w p : vec3) (ts : list corners) : Z := fold_right (fun t s => (tri_sum Z Z.add (hop n w p) t + s)%Z) 0%Z ts.
Section Part.
Variables (o n : vec3) (l l' : list vec3) (ts : list corners).
Hypothesis P : planar o n l.
Hypothesis Rd : reduces n l ts l'.
Hypothesis L' : (length l' <= 2)%nat.
Lemma wind_sum w p : winding n w p l = windsum n w p ts.
Proof.
  unfold winding. rewrite (reduces_sum Z Z.add 0%Z Z.opp (hop n w p) Z.add_assoc Z.add_comm Z.add_0_l Z.add_opp_diag_r (hop_anti n w p) n l ts l' Rd).
  rewrite (small_loop Z Z.add 0%Z Z.opp (hop n w p) Z.add_comm Z.add_0_l Z.add_opp_diag_r (hop_anti n w p) l' L' (hop_self n w p)). apply Z.add_0_r.
Qed.
Lemma area_sum : loop_area n l = fold_right (fun t s => twice n t + s) 0 ts.
Proof.
  unfold loop_area. assert (An : forall a b, dot n (cross b a) = - dot n (cross a b)) by (intros; spec_unfold; ring). assert (Z : forall a, dot n (cross a a) = 0) by (intros; spec_unfold; ring).
  assert (As : forall x y z, x + (y + z) = x + y + z) by (intros; ring).
  rewrite (reduces_sum R Rplus 0 Ropp _ As Rplus_comm Rplus_0_l Rplus_opp_r An n l ts l' Rd).
  rewrite (small_loop R Rplus 0 Ropp _ Rplus_comm Rplus_0_l Rplus_opp_r An l' L' Z), Rplus_0_r. clear. induction ts as [|((a, b), c) r IH]; [reflexivity|]. cbn [fold_right]. rewrite IH. f_equal. cbn [tri_sum twice]. unfold spin. spec_unfold. ring.
Qed.
Lemma tri_facts a b c p : List.In (a, b, c) ts -> dot n (vsub p o) = 0 -> n <> v3zero /\ 0 < spin n a b c /\ dot n (vsub a p) = 0 /\ dot n (vsub b p) = 0 /\ dot n (vsub c p) = 0.
Proof.
  intros I Hp. destruct (reduces_in _ _ _ _ Rd) as (_ & H). destruct (H a b c I) as (Ia & Ib & Ic & S). destruct P as (N & Pl). split; [exact N|]. split; [exact S|].
  assert (F : forall q, List.In q l -> dot n (vsub q p) = 0). { intros q J. replace (dot n (vsub q p)) with (dot n (vsub q o) - dot n (vsub p o)) by (spec_unfold; ring). rewrite (Pl q J), Hp. ring. } auto.
Qed.
Lemma each_01 w p t : dot n (vsub p o) = 0 -> List.In t ts -> tri_sum Z Z.add (hop n w p) t = 0%Z \/ tri_sum Z Z.add (hop n w p) t = 1%Z.
Proof. destruct t as ((a, b), c). intros Hp I. destruct (tri_facts a b c p I Hp) as (N & S & A & B & C). exact (wind_01 n a b c p N S A B C w). Qed.
Lemma each_in w p t : cross n w <> v3zero -> dot n (vsub p o) = 0 -> List.In t ts -> inner t p -> tri_sum Z Z.add (hop n w p) t = 1%Z.
Proof. destruct t as ((a, b), c). intros W Hp I K. destruct (tri_facts a b c p I Hp) as (N & S & A & B & C). exact (wind_in n a b c p N S A B C w W K). Qed.
Lemma each_out w p t : dot n (vsub p o) = 0 -> List.In t ts -> ~ closure t p -> tri_sum Z Z.add (hop n w p) t = 0%Z.
Proof. destruct t as ((a, b), c). intros Hp I K. destruct (tri_facts a b c p I Hp) as (N & S & A & B & C). exact (wind_out n a b c p N S A B C w K). Qed.
Lemma windsum_nonneg w p r : dot n (vsub p o) = 0 -> incl r ts -> (0 <= windsum n w p r)%Z.
Proof. intros Hp. induction r as [|t r IH]; intros I; [cbn; lia|]. cbn [windsum fold_right]. fold (windsum n w p r). assert (0 <= windsum n w p r)%Z by (apply IH; intros x J; apply I; right; exact J). destruct (each_01 w p t Hp ltac:(apply I; left; reflexivity)); lia. Qed.
Lemma windsum_app w p r s : windsum n w p (r ++ s) = (windsum n w p r + windsum n w p s)%Z.
Proof. induction r as [|t r IH]; [reflexivity|]. cbn [app windsum fold_right]. fold (windsum n w p (r ++ s)) (windsum n w p r). rewrite IH. lia. Qed.
Lemma cover w p : dot n (vsub p o) = 0 -> winding n w p l <> 0%Z -> exists t, List.In t ts /\ closure t p.
Proof.
  intros Hp W. rewrite wind_sum in W. assert (K : forall r, incl r ts -> windsum n w p r <> 0%Z -> exists t, List.In t r /\ tri_sum Z Z.add (hop n w p) t = 1%Z).
  { induction r as [|t r IH]; intros I Z; [cbn in Z; lia|]. cbn [windsum fold_right] in Z. fold (windsum n w p r) in Z. destruct (each_01 w p t Hp ltac:(apply I; left; reflexivity)) as [E|E]; [|exists t; split; [left; reflexivity|exact E]].
    destruct IH as (t' & J & E'); [intros x J; apply I; right; exact J|lia|]. exists t'. split; [right; exact J|exact E']. }
  destruct (K ts (incl_refl ts) W) as (((a, b), c) & I & E). exists (a, b, c). split; [exact I|]. destruct (tri_facts a b c p I Hp) as (N & S & A & B & C). cbn [closure].
  apply (areas_closed n a b c p N S A B C). destruct (Rle_dec 0 (spin n b c p)), (Rle_dec 0 (spin n c a p)), (Rle_dec 0 (spin n a b p)); try tauto; exfalso; assert (O : ~ in_triangle a b c p) by (intros T; apply (areas_closed n a b c p N S A B C) in T; tauto); pose proof (wind_out n a b c p N S A B C w O) as E0; cbn [tri_sum] in E; unfold tri_wind in E0; lia.
Qed.
Lemma excess w p t : cross n w <> v3zero -> dot n (vsub p o) = 0 -> winding n w p l = 0%Z -> List.In t ts -> ~ inner t p.
Proof.
  intros W Hp Z I K. rewrite wind_sum in Z. destruct (in_split _ _ I) as (r & s & E). rewrite E, windsum_app in Z. cbn [windsum fold_right] in Z. fold (windsum n w p s) in Z. rewrite (each_in w p t W Hp I K) in Z.
  assert (0 <= windsum n w p r)%Z by (apply windsum_nonneg; [exact Hp|rewrite E; intros x J; apply in_or_app; left; exact J]). assert (0 <= windsum n w p s)%Z by (apply windsum_nonneg; [exact Hp|rewrite E; intros x J; apply in_or_app; right; right; exact J]). lia.
Qed.
Lemma overlap w p r t s t' z : cross n w <> v3zero -> dot n (vsub p o) = 0 -> (winding n w p l <= 1)%Z -> ts = r ++ t :: s ++ t' :: z -> ~ (inner t p /\ inner t' p).
Proof.
  intros W Hp Z E (K & K'). rewrite wind_sum, E, windsum_app in Z. cbn [windsum fold_right] in Z. fold (windsum n w p (s ++ t' :: z)) in Z. rewrite windsum_app in Z. cbn [windsum fold_right] in Z. fold (windsum n w p z) in Z.
  assert (I : List.In t ts) by (rewrite E; apply in_or_app; right; left; reflexivity). assert (I' : List.In t' ts) by (rewrite E; apply in_or_app; right; right; apply in_or_app; right; left; reflexivity).
  rewrite (each_in w p t W Hp I K), (each_in w p t' W Hp I' K') in Z.
  assert (0 <= windsum n w p r)%Z by (apply windsum_nonneg; [exact Hp|rewrite E; intros x J; apply in_or_app; left; exact J]).
  assert (0 <= windsum n w p s)%Z by (apply windsum_nonneg; [exact Hp|rewrite E; intros x J; apply in_or_app; right; right; apply in_or_app; left; exact J]).
  assert (0 <= windsum n w p z)%Z by (apply windsum_nonneg; [exact Hp|rewrite E; intros x J; apply in_or_app; right; right; apply in_or_app; right; right; exact J]). lia.
Qed.
End Part.

(** Proofs about the fit of a sphere. *)
From Coq Require Import Reals Lra Lia List ClassicalEpsilon.
From Verif Require Import Base Spec SpecPCA SpecProfile SpecFit ModelVec ModelData ModelPCA ModelFit FactsAlg FactsVec FactsData FactsData2 FactsPCA FactsPCA2 FactsProfile FactsIcp.
Import ListNotations.
Open Scope R_scope.

(** ** Sums *)
Lemma fsum_ext f g l : (forall p, List.In p l -> f p = g p) -> rsum f l = rsum g l.
Proof. intros H. unfold rsum. induction l as [|p l IH]; [reflexivity|]. cbn [fold_right]. rewrite IH by (intros q I; apply H; right; exact I). rewrite (H p) by (left; reflexivity). reflexivity. Qed.
Lemma fsum_lin f g a b l : rsum (fun p => a * f p + b * g p) l = a * rsum f l + b * rsum g l.
Proof. unfold rsum. induction l as [|p l IH]; cbn [fold_right]; [lra|]. rewrite IH. lra. Qed.
Lemma fsum_le f g l : (forall p, List.In p l -> f p <= g p) -> rsum f l <= rsum g l.
Proof. intros H. unfold rsum. induction l as [|p l IH]; cbn [fold_right]; [lra|]. apply Rplus_le_compat; [apply H; left; reflexivity|]. apply IH. intros q I. apply H. right. exact I. Qed.
Lemma fsum_const a l : rsum (fun _ => a) l = INR (length l) * a.
Proof. unfold rsum. induction l as [|p l IH]; [cbn; lra|]. cbn [fold_right]. rewrite IH. change (length (p :: l)) with (S (length l)). rewrite S_INR. lra. Qed.
Lemma fsum_abs f l : Rabs (rsum f l) <= rsum (fun p => Rabs (f p)) l.
Proof. unfold rsum. induction l as [|p l IH]; cbn [fold_right]; [rewrite Rabs_R0; lra|]. eapply Rle_trans; [apply Rabs_triang|]. lra. Qed.
Lemma fsum_nonneg f l : (forall p, List.In p l -> 0 <= f p) -> 0 <= rsum f l.
Proof. intros H. replace 0 with (rsum (fun _ => 0) l) by (rewrite fsum_const; lra). apply fsum_le. exact H. Qed.
Lemma fsum_zero f l : (forall p, List.In p l -> 0 <= f p) -> rsum f l <= 0 -> forall p, List.In p l -> f p = 0.
Proof.
  induction l as [|q l IH]; intros H S p I; [destruct I|]. cbn in S. fold (rsum f l) in S. assert (H1 := H q (or_introl eq_refl)). assert (H2 : 0 <= rsum f l) by (apply fsum_nonneg; intros x Ix; apply H; right; exact Ix).
  destruct I as [->|I]; [lra|]. apply IH; [intros x Ix; apply H; right; exact Ix|lra|exact I].
Qed.

(** ** The system *)
Definition rows_of (l : list vec3) (c : vec3) (r : R) : list (vec3 * R) := map (fun p => (vsub p c, r)) l.
Definition err_of (c : vec3) (r : R) (p : vec3) : R := dot (vsub p c) (vsub p c) - r * r.
Definition errs_of (l : list vec3) (c : vec3) (r : R) : list R := map (err_of c r) l.
Lemma sys_holds d l c r : holds d l -> exists d', fit_system d c r = Some (d', (rows_of l c r, errs_of l c r)) /\ holds d' l.
Proof.
  intros H. unfold fit_system. match goal with |- context [while_fetch _ _ ?s ?b] => destruct (while_holds b d l s H) as (d' & E & H') end.
  exists d'. split; [|exact H']. rewrite E. do 2 f_equal. clear E H H'.
  assert (G : forall l a b, fold_brk (fun (s : list (vec3 * R) * list R) (v : vec3) => inl (fst s ++ [(V3 (vx v - vx c) (vy v - vy c) (vz v - vz c), r)], snd s ++ [zVec3DSqrDist v c - zSqr r])) (a, b) l = (a ++ rows_of l c r, b ++ errs_of l c r)).
  { induction l0 as [|p l0 IH]; intros a b; cbn [fold_brk rows_of errs_of map]; [rewrite !app_nil_r; reflexivity|]. cbn [fst snd]. rewrite IH, <- !app_assoc. reflexivity. }
  apply G.
Qed.
Lemma sq_err_sum l c r x : sq_err (rows_of l c r) (errs_of l c r) x = rsum (fun p => (row_dot (vsub p c, r) x - err_of c r p) * (row_dot (vsub p c, r) x - err_of c r p)) l.
Proof. unfold rows_of, errs_of, rsum. induction l as [|p l IH]; [reflexivity|]. cbn [map sq_err fold_right]. rewrite IH. reflexivity. Qed.
Lemma not_flat l : ~ coplanar l -> l <> [].
Proof. intros H E. subst l. apply H. exists (V3 1 0 0), 0. split; [intros X; injection X; lra|]. intros p []. Qed.
Lemma rank_full l c r : ~ coplanar l -> r <> 0 -> full_rank (rows_of l c r).
Proof.
  intros NC NR [u s] H.
  assert (K : forall p, List.In p l -> dot (vsub p c) u + r * s = 0) by (intros p I; apply (H (vsub p c, r)); unfold rows_of; apply (in_map (fun q => (vsub q c, r))); exact I).
  assert (U : u = V3 0 0 0).
  { destruct (excluded_middle_informative (u = V3 0 0 0)) as [E|E]; [exact E|]. exfalso. apply NC. exists u, (dot c u - r * s). split; [exact E|]. intros p I. specialize (K p I). unfold dot, vsub in *. cbn [vx vy vz] in *. lra. }
  subst u. f_equal. pose proof (not_flat l NC) as NE. destruct l as [|p l]; [congruence|]. specialize (K p (or_introl eq_refl)). unfold dot in K. cbn [vx vy vz] in K. nra.
Qed.
Lemma rank_lost l c r : coplanar l -> ~ full_rank (rows_of l c r).
Proof.
  intros (n & k & N & H) F. destruct (Req_dec r 0) as [E|E].
  - subst r. specialize (F (V3 0 0 0, 1)). assert (X : (V3 0 0 0, 1) = (V3 0 0 0, 0)); [|injection X; lra]. apply F. intros a I. unfold rows_of in I. apply in_map_iff in I. destruct I as (p & <- & _). unfold row_dot, dot. cbn. lra.
  - specialize (F (n, (dot c n - k) / r)). apply N. assert (X : (n, (dot c n - k) / r) = (V3 0 0 0, 0)); [|injection X; intros _ ->; reflexivity]. apply F. intros a I. unfold rows_of in I. apply in_map_iff in I. destruct I as (p & <- & I). specialize (H p I).
    unfold row_dot. cbn [fst snd]. replace (r * ((dot c n - k) / r)) with (dot c n - k) by (field; exact E). unfold dot, vsub in *. cbn [vx vy vz] in *. lra.
Qed.

(** ** Points on a sphere *)
Section Exact.
Variable solve : list (vec3 * R) -> list R -> vec3 * R.
Variables (l : list vec3) (c0 : vec3) (r0 : R).
Hypothesis LS : least_squares solve.
Hypothesis R0 : 0 < r0.
Hypothesis ON : forall p, List.In p l -> dist p c0 = r0.
Hypothesis NC : ~ coplanar l.
Lemma on_sq p : List.In p l -> dot (vsub p c0) (vsub p c0) = r0 * r0.
Proof. intros I. rewrite <- (ON p I). unfold dist, norm. symmetry. apply sqrt_sqrt. unfold dot. nra. Qed.
Definition gap (c : vec3) : R := dot (vsub c0 c) (vsub c0 c).
Definition answer (c : vec3) (r : R) : vec3 * R := (vscale 2 (vsub c0 c), (r0 * r0 - gap c - r * r) / r).
Lemma step_exact c r : r <> 0 -> solve (rows_of l c r) (errs_of l c r) = answer c r.
Proof.
  intros NR. set (x := solve _ _). pose proof (rank_full l c r NC NR) as FR.
  assert (A : forall p, List.In p l -> row_dot (vsub p c, r) (answer c r) = err_of c r p).
  { intros p I. pose proof (on_sq p I) as Q. unfold row_dot, answer, err_of, gap. cbn [fst snd]. replace (r * ((r0 * r0 - dot (vsub c0 c) (vsub c0 c) - r * r) / r)) with (r0 * r0 - dot (vsub c0 c) (vsub c0 c) - r * r) by (field; exact NR).
    rewrite <- Q. unfold dot, vsub, vscale. cbn [vx vy vz]. ring. }
  assert (Z : sq_err (rows_of l c r) (errs_of l c r) x <= 0).
  { eapply Rle_trans; [apply (LS (rows_of l c r) (errs_of l c r)) with (x := answer c r)|].
    - unfold rows_of, errs_of. rewrite !map_length. reflexivity.
    - exact FR.
    - rewrite sq_err_sum. rewrite (fsum_ext _ (fun _ => 0)); [rewrite fsum_const; lra|]. intros p I. rewrite (A p I). ring. }
  rewrite sq_err_sum in Z. pose proof (fsum_zero _ l (fun p _ => Rle_0_sqr _) Z) as E.
  assert (D : (vsub (fst x) (fst (answer c r)), snd x - snd (answer c r)) = (V3 0 0 0, 0)).
  { apply FR. intros a I. unfold rows_of in I. apply in_map_iff in I. destruct I as (p & <- & I). specialize (E p I). cbn beta in E. rewrite <- (A p I) in E. 
    assert (E' : row_dot (vsub p c, r) x - row_dot (vsub p c, r) (answer c r) = 0) by (apply Rsqr_0_uniq; exact E). unfold row_dot in *. cbn [fst snd] in *. unfold dot, vsub in *. cbn [vx vy vz] in *. lra. }
  clear - D. revert D. generalize (answer c r). intros [u' s'] D. destruct x as [u s]. cbn [fst snd] in D. injection D as D1 D2 D3 D4. f_equal; [apply vec3_ext; lra|lra].
Qed.
Lemma tiny_answer c r : step_tiny (answer c r) = true <-> Rabs (2 * (vx c0 - vx c)) < zTOL /\ Rabs (2 * (vy c0 - vy c)) < zTOL /\ Rabs (2 * (vz c0 - vz c)) < zTOL /\ Rabs ((r0 * r0 - gap c - r * r) / r) < zTOL.
Proof. unfold step_tiny, answer. cbn [fst snd]. unfold vscale, vsub. cbn [vx vy vz]. rewrite !Bool.andb_true_iff, !zIsTiny_true. tauto. Qed.
Lemma gap_0 : gap c0 = 0. Proof. unfold gap, dot, vsub. cbn. ring. Qed.
(** the second phase: Heron's iteration for the radius *)
Lemma heron_stop r : 0 < r -> Rabs ((r0 * r0 - gap c0 - r * r) / r) < zTOL -> Rabs (r - r0) < zTOL.
Proof.
  intros HR. rewrite gap_0. replace ((r0 * r0 - 0 - r * r) / r) with ((r0 - r) * (1 + r0 / r)) by (field; lra). rewrite Rabs_mult, (Rabs_pos_eq (1 + r0 / r)).
  - intros H. assert (0 < r0 / r) by (apply Rdiv_lt_0_compat; assumption). rewrite Rabs_minus_sym. pose proof (Rabs_pos (r0 - r)). nra.
  - assert (0 < r0 / r) by (apply Rdiv_lt_0_compat; assumption). lra.
Qed.
Definition heron (r : R) : R := r + 1/2 * ((r0 * r0 - gap c0 - r * r) / r).
Lemma heron_eq r : 0 < r -> heron r = (r * r + r0 * r0) / (2 * r).
Proof. intros H. unfold heron. rewrite gap_0. field. lra. Qed.
Lemma heron_above r : 0 < r -> r0 <= heron r.
Proof.
  intros H. rewrite heron_eq by exact H. apply (Rmult_le_reg_r (2 * r)); [lra|]. replace ((r * r + r0 * r0) / (2 * r) * (2 * r)) with (r * r + r0 * r0) by (field; lra). pose proof (Rle_0_sqr (r - r0)). unfold Rsqr in *. lra.
Qed.
Lemma heron_half r : r0 <= r -> heron r - r0 <= (r - r0) / 2.
Proof.
  intros H. rewrite heron_eq by lra. apply (Rmult_le_reg_r (2 * r)); [lra|]. replace (((r * r + r0 * r0) / (2 * r) - r0) * (2 * r)) with ((r - r0) * (r - r0)) by (field; lra). nra.
Qed.
Lemma heron_near r : r0 <= r -> r - r0 < zTOL / 2 -> Rabs ((r0 * r0 - gap c0 - r * r) / r) < zTOL.
Proof.
  intros H1 H2. rewrite gap_0. replace ((r0 * r0 - 0 - r * r) / r) with (- ((r - r0) * (1 + r0 / r))) by (field; lra). rewrite Rabs_Ropp.
  assert (A : 0 < r0 / r <= 1) by (split; [apply Rdiv_lt_0_compat; lra|apply (Rmult_le_reg_r r); [lra|]; replace (r0 / r * r) with r0 by (field; lra); lra]). rewrite Rabs_pos_eq by nra. nra.
Qed.
Lemma move_centre c r : zVec3DCat c (1/2) (fst (answer c r)) = c0.
Proof. unfold answer. cbn [fst]. apply vec3_ext; unfold zVec3DCat, vscale, vsub; cbn [vx vy vz]; lra. Qed.
Lemma move_at r d n : 0 < r -> holds d l -> exists d', holds d' l /\ fit_loop solve (S n) d c0 r =
  if step_tiny (answer c0 r) then Some (d', (c0, r, true)) else fit_loop solve n d' c0 (heron r).
Proof.
  intros HR H. destruct (sys_holds d l c0 r H) as (d' & E & H'). exists d'. split; [exact H'|]. cbn [fit_loop]. rewrite E, step_exact by lra. destruct (step_tiny (answer c0 r)); [reflexivity|]. rewrite move_centre. reflexivity.
Qed.
Lemma tiny_c0 r : step_tiny (answer c0 r) = true <-> Rabs ((r0 * r0 - gap c0 - r * r) / r) < zTOL.
Proof.
  assert (Z := zTOL_pos). rewrite tiny_answer. split; [tauto|]. intros H. replace (2 * (vx c0 - vx c0)) with 0 by ring. replace (2 * (vy c0 - vy c0)) with 0 by ring. replace (2 * (vz c0 - vz c0)) with 0 by ring. rewrite Rabs_R0. tauto.
Qed.
Lemma phase2 n : forall d r, 0 < r -> holds d l -> exists d' r' b, fit_loop solve n d c0 r = Some (d', (c0, r', b)) /\ holds d' l /\ 0 < r' /\ (b = true -> Rabs (r' - r0) < zTOL).
Proof.
  induction n as [|n IH]; intros d r HR H.
  - exists d, r, false. cbn [fit_loop]. repeat split; try assumption; try apply H. discriminate.
  - destruct (move_at r d n HR H) as (d1 & H1 & E). rewrite E. destruct (step_tiny (answer c0 r)) eqn:T.
    + exists d1, r, true. repeat split; try assumption; try apply H1. intros _. apply heron_stop; [exact HR|]. apply tiny_c0. exact T.
    + apply IH; [|exact H1]. pose proof (heron_above r HR). lra.
Qed.
Lemma phase2_conv k : forall n d r, r0 <= r -> r - r0 < 2 ^ k * (zTOL / 2) -> (k < n)%nat -> holds d l -> exists d' r', fit_loop solve n d c0 r = Some (d', (c0, r', true)).
Proof.
  induction k as [|k IH]; intros n d r HR HK L H; (destruct n as [|n]; [lia|]); destruct (move_at r d n ltac:(lra) H) as (d1 & H1 & E); rewrite E.
  - replace (step_tiny (answer c0 r)) with true; [eexists; eexists; reflexivity|]. symmetry. apply tiny_c0. apply heron_near; [exact HR|]. cbn [pow] in HK. lra.
  - destruct (step_tiny (answer c0 r)); [eexists; eexists; reflexivity|]. apply IH; [apply heron_above; lra| |lia|exact H1]. pose proof (heron_half r HR). cbn [pow] in HK. lra.
Qed.
Lemma some_power y : exists k, y < 2 ^ k * (zTOL / 2).
Proof.
  assert (Z := zTOL_pos). destruct (Pow_x_infinity 2 ltac:(rewrite Rabs_pos_eq; lra) (Rabs y / (zTOL / 2) + 1)) as (k & K). exists k. specialize (K k (le_n k)). rewrite Rabs_pos_eq in K by (apply pow_le; lra).
  apply Rle_lt_trans with (Rabs y); [apply Rle_abs|]. apply (Rmult_lt_reg_r (/ (zTOL / 2))); [apply Rinv_0_lt_compat; lra|]. rewrite Rmult_assoc, Rinv_r by lra. unfold Rdiv in *. lra.
Qed.

(** the first guess *)
Definition guess : R := rsum (fun p => dist p (vmean l)) l / INR (length l).
Lemma len_pos : 0 < INR (length l).
Proof. pose proof (not_flat l NC). apply lt_0_INR. destruct l; [congruence|cbn; lia]. Qed.
Lemma mean_sq : mean (fun p => dist p (vmean l) * dist p (vmean l)) l = r0 * r0 - gap (vmean l).
Proof.
  pose proof (bary_best l c0 (not_flat l NC)) as B. pose proof len_pos as L.
  assert (E : mean (fun p => dist p c0 * dist p c0) l = r0 * r0). { unfold mean. rewrite (fsum_ext _ (fun _ => r0 * r0)) by (intros p I; rewrite (ON p I); reflexivity). rewrite fsum_const. field. lra. }
  rewrite E in B. assert (G : dist (vmean l) c0 * dist (vmean l) c0 = gap (vmean l)). { unfold dist, norm, gap. rewrite sqrt_sqrt by (unfold dot; nra). unfold dot, vsub. cbn [vx vy vz]. ring. } lra.
Qed.
Lemma guess_sq : guess * guess <= r0 * r0 - gap (vmean l).
Proof.
  rewrite <- mean_sq. pose proof len_pos as L. set (f := fun p => dist p (vmean l)). change (guess * guess <= mean (fun p => f p * f p) l).
  assert (S : 0 <= rsum (fun p => (f p - guess) * (f p - guess)) l) by (apply fsum_nonneg; intros p _; apply Rle_0_sqr).
  rewrite (fsum_ext _ (fun p => 1 * (f p * f p) + 1 * ((-2 * guess) * f p + guess * guess * 1))) in S by (intros p _; ring).
  rewrite (fsum_lin (fun p => f p * f p) (fun p => (-2 * guess) * f p + guess * guess * 1)), (fsum_lin f (fun _ => 1)), fsum_const in S.
  assert (Gd : rsum f l = guess * INR (length l)) by (unfold guess; change (rsum (fun p => dist p (vmean l)) l) with (rsum f l); field; lra). rewrite Gd in S.
  unfold mean. apply (Rmult_le_reg_r (INR (length l))); [exact L|]. replace (rsum (fun p => f p * f p) l / INR (length l) * INR (length l)) with (rsum (fun p => f p * f p) l) by (field; lra). lra.
Qed.
Lemma guess_pos : 0 < guess.
Proof.
  pose proof len_pos as L. unfold guess. apply Rdiv_lt_0_compat; [|exact L]. 
  assert (N : forall p, List.In p l -> 0 <= dist p (vmean l)) by (intros p _; apply sqrt_pos). destruct (Rle_lt_or_eq_dec _ _ (fsum_nonneg _ l N)) as [H|H]; [exact H|]. exfalso. apply NC.
  exists (V3 1 0 0), (vx (vmean l)). split; [intros X; injection X; lra|]. intros p I. pose proof (fsum_zero _ l N ltac:(rewrite <- H; lra) p I) as Z. unfold dist, norm in Z. apply sqrt_eq_0 in Z; [|unfold dot; nra].
  assert (X : vx p - vx (vmean l) = 0). { revert Z. unfold dot, vsub. cbn [vx vy vz]. generalize (vx p - vx (vmean l)), (vy p - vy (vmean l)), (vz p - vz (vmean l)). intros a b c' Z. nra. } unfold dot. cbn [vx vy vz]. lra.
Qed.
Lemma start_holds d n : holds d l -> exists d1, holds d1 l /\ zSphere3DFit solve n d = fit_loop solve n d1 (vmean l) guess.
Proof using NC.
  clear ON.
  intros H. pose proof (not_flat l NC) as NE. unfold zSphere3DFit. destruct (bary_holds d l H NE) as (d1 & E1 & H1). rewrite E1.
  match goal with |- context [while_fetch _ _ ?s ?b] => destruct (while_holds b d1 l s H1) as (d2 & E2 & H2) end. rewrite E2.
  exists d2. split; [exact H2|]. destruct (holds_wf d2 l H2) as (W & C). rewrite size_spec by exact W. rewrite C. replace (Nat.eqb (length l) 0) with false by (destruct l; [congruence|reflexivity]).
  f_equal. unfold guess. f_equal. clear - solve. 
  assert (G : forall m s, fold_brk (fun s v => inl (s + zVec3DDist v (vmean l))) s m = s + rsum (fun p => dist p (vmean l)) m).
  { induction m as [|p m IH]; intros s; cbn [fold_brk]; [unfold rsum; cbn; lra|]. rewrite IH. unfold rsum at 2. cbn [fold_right]. fold (rsum (fun p => dist p (vmean l)) m). change (zVec3DDist p (vmean l)) with (dist p (vmean l)). lra. }
  rewrite G. lra.
Qed.
Lemma gap_bound c : Rabs (2 * (vx c0 - vx c)) < zTOL -> Rabs (2 * (vy c0 - vy c)) < zTOL -> Rabs (2 * (vz c0 - vz c)) < zTOL -> 0 <= gap c <= zTOL * zTOL.
Proof.
  intros A B C. unfold gap, dot, vsub. cbn [vx vy vz]. apply Rabs_def2 in A. apply Rabs_def2 in B. apply Rabs_def2 in C. split; [pose proof (Rle_0_sqr (vx c0 - vx c)); pose proof (Rle_0_sqr (vy c0 - vy c)); pose proof (Rle_0_sqr (vz c0 - vz c)); unfold Rsqr in *; lra|].
  assert (H : forall t, - zTOL < 2 * t < zTOL -> t * t <= zTOL * zTOL / 4) by (intros t T; assert (0 <= (zTOL - 2 * t) * (zTOL + 2 * t)) by (apply Rmult_le_pos; lra); lra). pose proof (H _ (conj (proj2 A) (proj1 A))). pose proof (H _ (conj (proj2 B) (proj1 B))). pose proof (H _ (conj (proj2 C) (proj1 C))). assert (Z := zTOL_pos). nra.
Qed.
Lemma stop_first : Rabs (2 * (vx c0 - vx (vmean l))) < zTOL -> Rabs (2 * (vy c0 - vy (vmean l))) < zTOL -> Rabs (2 * (vz c0 - vz (vmean l))) < zTOL ->
  Rabs ((r0 * r0 - gap (vmean l) - guess * guess) / guess) < zTOL -> Rabs (guess - r0) <= 2 * zTOL.
Proof.
  intros A B C D. assert (Z := zTOL_pos). pose proof (gap_bound _ A B C) as G. pose proof guess_pos as GP. pose proof guess_sq as GS. set (m2 := r0 * r0 - gap (vmean l)) in *. 
  rewrite Rabs_pos_eq in D by (apply Rmult_le_pos; [lra|left; apply Rinv_0_lt_compat; exact GP]).
  assert (D' : m2 - guess * guess < zTOL * guess) by (apply (Rmult_lt_compat_r guess) in D; [|exact GP]; replace ((m2 - guess * guess) / guess * guess) with (m2 - guess * guess) in D by (field; lra); exact D).
  assert (U : guess <= r0) by (apply Rsqr_incr_0_var; [unfold Rsqr; unfold m2 in GS; lra|lra]). rewrite Rabs_left1 by lra. destruct (Rle_dec (r0 - guess) (2 * zTOL)) as [K|K]; [lra|]. exfalso. assert (guess + 2 * zTOL < r0) by lra. assert (P : (guess + 2 * zTOL) * (guess + 2 * zTOL) < r0 * r0) by (apply Rmult_le_0_lt_compat; lra). assert (0 < zTOL * guess) by (apply Rmult_lt_0_compat; lra). assert (0 < zTOL * zTOL) by (apply Rmult_lt_0_compat; lra). unfold m2 in *. lra.
Qed.
Lemma exact_run d n : holds d l -> exists d' c' r' b, zSphere3DFit solve (S n) d = Some (d', (c', r', b)) /\ holds d' l /\
  Rabs (vx c' - vx c0) <= zTOL / 2 /\ Rabs (vy c' - vy c0) <= zTOL / 2 /\ Rabs (vz c' - vz c0) <= zTOL / 2 /\ (b = true -> Rabs (r' - r0) <= 2 * zTOL).
Proof.
  intros H. assert (Z := zTOL_pos). destruct (start_holds d (S n) H) as (d1 & H1 & E). rewrite E. pose proof guess_pos as GP. cbn [fit_loop]. destruct (sys_holds d1 l (vmean l) guess H1) as (d2 & E2 & H2). rewrite E2, step_exact by lra.
  destruct (step_tiny (answer (vmean l) guess)) eqn:T.
  - apply tiny_answer in T. destruct T as (A & B & C & D). exists d2, (vmean l), guess, true. split; [reflexivity|]. split; [exact H2|].
    assert (Q : forall a b, Rabs (2 * (a - b)) < zTOL -> Rabs (b - a) <= zTOL / 2) by (intros a b X; rewrite Rabs_mult, (Rabs_pos_eq 2) in X by lra; rewrite Rabs_minus_sym; lra).
    split; [apply Q; exact A|]. split; [apply Q; exact B|]. split; [apply Q; exact C|]. intros _. apply stop_first; assumption.
  - rewrite move_centre. set (r1 := guess + _). assert (R1 : 0 < r1).
    { pose proof guess_sq as GS. unfold r1, answer. cbn [snd]. assert (0 <= (r0 * r0 - gap (vmean l) - guess * guess) / guess) by (apply Rmult_le_pos; [lra|left; apply Rinv_0_lt_compat; exact GP]). lra. }
    destruct (phase2 n d2 r1 R1 H2) as (d' & r' & b & E3 & H3 & RP & ST). exists d', c0, r', b. split; [exact E3|]. split; [exact H3|].
    replace (vx c0 - vx c0) with 0 by ring. replace (vy c0 - vy c0) with 0 by ring. replace (vz c0 - vz c0) with 0 by ring. rewrite Rabs_R0. do 3 (split; [lra|]). intros Bt. specialize (ST Bt). lra.
Qed.
Lemma exact_conv d : holds d l -> exists k, forall n, (k <= n)%nat -> exists d' c' r', zSphere3DFit solve n d = Some (d', (c', r', true)).
Proof.
  intros H. pose proof guess_pos as GP. set (r1 := guess + 1/2 * snd (answer (vmean l) guess)). assert (R1 : 0 < r1).
  { pose proof guess_sq as GS. unfold r1, answer. cbn [snd]. assert (0 <= (r0 * r0 - gap (vmean l) - guess * guess) / guess) by (apply Rmult_le_pos; [lra|left; apply Rinv_0_lt_compat; exact GP]). lra. }
  destruct (some_power (heron r1 - r0)) as (k & K). exists (S (S (S k))). intros n L. destruct n as [|n]; [lia|]. destruct n as [|n]; [lia|].
  destruct (start_holds d (S (S n)) H) as (d1 & H1 & E). rewrite E. cbn [fit_loop]. destruct (sys_holds d1 l (vmean l) guess H1) as (d2 & E2 & H2). rewrite E2, step_exact by lra.
  destruct (step_tiny (answer (vmean l) guess)) eqn:T; [do 3 eexists; reflexivity|]. rewrite move_centre. fold r1. destruct (move_at r1 d2 n R1 H2) as (d3 & H3 & E3). cbn [fit_loop] in E3. rewrite E3.
  destruct (step_tiny (answer c0 r1)); [do 3 eexists; reflexivity|]. destruct (phase2_conv k n d3 (heron r1)) as (d' & r' & E4); [apply heron_above; exact R1|exact K|lia|exact H3|]. do 3 eexists. exact E4.
Qed.
End Exact.
Lemma fit_exact : forall solve d l c r, least_squares solve -> holds d l -> 0 < r -> (forall p, List.In p l -> dist p c = r) -> ~ coplanar l ->
  (forall n, exists d' c' r' b, zSphere3DFit solve (S n) d = Some (d', (c', r', b)) /\ holds d' l /\
    Rabs (vx c' - vx c) <= zTOL / 2 /\ Rabs (vy c' - vy c) <= zTOL / 2 /\ Rabs (vz c' - vz c) <= zTOL / 2 /\ (b = true -> Rabs (r' - r) <= 2 * zTOL)) /\
  exists k, forall n, (k <= n)%nat -> exists d' c' r', zSphere3DFit solve n d = Some (d', (c', r', true)).
Proof. intros solve d l c r LS H HR ON NC. split; [intros n; apply (exact_run solve l c r LS HR ON NC d n H)|apply (exact_conv solve l c r LS HR ON NC d H)]. Qed.

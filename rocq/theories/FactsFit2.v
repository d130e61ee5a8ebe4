(** Proofs about the fit of a sphere: where the iteration stops, and that least-squares solvers exist. *)
From Coq Require Import Reals Lra Lia List ClassicalEpsilon.
From Verif Require Import Base Spec SpecPCA SpecProfile SpecFit ModelVec ModelData ModelPCA ModelFit FactsAlg FactsVec FactsData FactsData2 FactsPCA FactsPCA2 FactsProfile FactsIcp FactsFit.
Import ListNotations.
Open Scope R_scope.

Lemma loop_true solve l n : forall d c r d' c' r', holds d l -> fit_loop solve n d c r = Some (d', (c', r', true)) -> step_tiny (solve (rows_of l c' r') (errs_of l c' r')) = true.
Proof.
  induction n as [|n IH]; intros d c r d' c' r' H E; cbn [fit_loop] in E; [discriminate|]. destruct (sys_holds d l c r H) as (d1 & E1 & H1). rewrite E1 in E.
  destruct (step_tiny (solve (rows_of l c r) (errs_of l c r))) eqn:T; [|apply (IH _ _ _ _ _ _ H1 E)]. inversion E; subst. exact T.
Qed.
Lemma quad_zero S Q : 0 <= Q -> (forall t, 0 <= 2 * t * S + t * t * Q) -> S = 0.
Proof.
  intros HQ H. specialize (H (- S / (Q + 1))). replace (2 * (- S / (Q + 1)) * S + - S / (Q + 1) * (- S / (Q + 1)) * Q) with (- ((S * S) * ((Q + 2) / ((Q + 1) * (Q + 1))))) in H by (field; lra).
  assert (0 < (Q + 2) / ((Q + 1) * (Q + 1))) by (apply Rdiv_lt_0_compat; nra). assert (S * S <= 0); [|nra]. apply Rnot_lt_le. intros L. assert (0 < S * S * ((Q + 2) / ((Q + 1) * (Q + 1)))) by (apply Rmult_lt_0_compat; assumption). lra.
Qed.
Definition hadd (x h : vec3 * R) (t : R) : vec3 * R := (vadd (fst x) (vscale t (fst h)), snd x + t * snd h).
Lemma row_hadd a x h t : row_dot a (hadd x h t) = row_dot a x + t * row_dot a h.
Proof. unfold row_dot, hadd. cbn [fst snd]. unfold dot, vadd, vscale. cbn [vx vy vz]. ring. Qed.
Lemma normal_eq solve l c r h : least_squares solve -> ~ coplanar l -> r <> 0 ->
  rsum (fun p => row_dot (vsub p c, r) h * (row_dot (vsub p c, r) (solve (rows_of l c r) (errs_of l c r)) - err_of c r p)) l = 0.
Proof.
  intros LS NC NR. set (x := solve _ _). apply (quad_zero _ (rsum (fun p => row_dot (vsub p c, r) h * row_dot (vsub p c, r) h) l)).
  - apply fsum_nonneg. intros p _. apply Rle_0_sqr.
  - intros t. assert (L : sq_err (rows_of l c r) (errs_of l c r) x <= sq_err (rows_of l c r) (errs_of l c r) (hadd x h t)) by (apply LS; [unfold rows_of, errs_of; rewrite !map_length; reflexivity|apply rank_full; assumption]).
    rewrite !sq_err_sum in L. rewrite (fsum_ext (fun p => (row_dot (vsub p c, r) (hadd x h t) - _) * _) (fun p => 1 * ((row_dot (vsub p c, r) x - err_of c r p) * (row_dot (vsub p c, r) x - err_of c r p)) + 1 * ((2 * t) * (row_dot (vsub p c, r) h * (row_dot (vsub p c, r) x - err_of c r p)) + (t * t) * (row_dot (vsub p c, r) h * row_dot (vsub p c, r) h)))) in L by (intros p _; rewrite row_hadd; ring).
    rewrite (fsum_lin (fun p => (row_dot (vsub p c, r) x - err_of c r p) * (row_dot (vsub p c, r) x - err_of c r p)) (fun p => (2 * t) * (row_dot (vsub p c, r) h * (row_dot (vsub p c, r) x - err_of c r p)) + (t * t) * (row_dot (vsub p c, r) h * row_dot (vsub p c, r) h))) in L.
    rewrite (fsum_lin (fun p => row_dot (vsub p c, r) h * (row_dot (vsub p c, r) x - err_of c r p)) (fun p => row_dot (vsub p c, r) h * row_dot (vsub p c, r) h)) in L. lra.
Qed.
(** the deviation along a line is a polynomial *)
Lemma quartic c0 c1 c2 c3 c4 : derivable_pt_lim (fun t => c0 + c1 * t + c2 * t ^ 2 + c3 * t ^ 3 + c4 * t ^ 4) 0 c1.
Proof.
  assert (P : forall a n, derivable_pt_lim (fun t => a * t ^ n) 0 (a * (INR n * 0 ^ pred n))) by (intros a n; apply (derivable_pt_lim_scal (fun t => t ^ n)); apply derivable_pt_lim_pow).
  assert (C : derivable_pt_lim (fun _ => c0) 0 0) by apply derivable_pt_lim_const.
  assert (L : derivable_pt_lim (fun t => c1 * t) 0 (c1 * 1)) by (apply (derivable_pt_lim_scal (fun t => t)); apply derivable_pt_lim_id).
  pose proof (derivable_pt_lim_plus _ _ _ _ _ (derivable_pt_lim_plus _ _ _ _ _ (derivable_pt_lim_plus _ _ _ _ _ (derivable_pt_lim_plus _ _ _ _ _ C L) (P c2 2%nat)) (P c3 3%nat)) (P c4 4%nat)) as D.
  replace (0 + c1 * 1 + c2 * (INR 2 * 0 ^ pred 2) + c3 * (INR 3 * 0 ^ pred 3) + c4 * (INR 4 * 0 ^ pred 4)) with c1 in D by (cbn; ring). exact D.
Qed.
Lemma deviation_line l c r u s : exists c2 c3 c4, forall t, deviation l (vadd c (vscale t u)) (r + t * s) = deviation l c r + (-4 * rsum (fun p => row_dot (vsub p c, r) (u, s) * err_of c r p) l) * t + c2 * t ^ 2 + c3 * t ^ 3 + c4 * t ^ 4.
Proof.
  unfold deviation. induction l as [|p l (c2 & c3 & c4 & IH)]; [exists 0, 0, 0; intros t; unfold rsum; cbn; ring|].
  set (e := err_of c r p). set (a := row_dot (vsub p c, r) (u, s)). set (q := dot u u - s * s).
  exists (c2 + 4 * a * a + 2 * e * q), (c3 - 4 * a * q), (c4 + q * q). intros t. specialize (IH t). unfold rsum in *. cbn [fold_right]. rewrite IH. clear IH.
  assert (E : dist p (vadd c (vscale t u)) * dist p (vadd c (vscale t u)) - (r + t * s) * (r + t * s) = e - 2 * t * a + t * t * q).
  { unfold dist, norm. rewrite sqrt_sqrt by (unfold dot; nra). unfold e, a, q, err_of, row_dot, dot, vsub, vadd, vscale. cbn [fst snd vx vy vz]. ring. }
  assert (E0 : dist p c * dist p c - r * r = e). { unfold dist, norm. rewrite sqrt_sqrt by (unfold dot; nra). reflexivity. }
  rewrite E, E0. fold a. fold e. ring.
Qed.
Lemma row_bound p c r h m : Rabs (vx (fst h)) <= m -> Rabs (vy (fst h)) <= m -> Rabs (vz (fst h)) <= m -> Rabs (snd h) <= m -> Rabs (row_dot (vsub p c, r) h) <= m * reach c r p.
Proof.
  intros A B C D. unfold row_dot, reach, dot. cbn [fst snd]. 
  eapply Rle_trans; [apply Rabs_triang|]. eapply Rle_trans; [apply Rplus_le_compat_r; eapply Rle_trans; [apply Rabs_triang|apply Rplus_le_compat_r, Rabs_triang]|]. rewrite !Rabs_mult. unfold vsub in *. cbn [vx vy vz] in *.
  assert (K : forall a b, Rabs b <= m -> Rabs a * Rabs b <= m * Rabs a) by (intros a b X; rewrite (Rmult_comm m); apply Rmult_le_compat_l; [apply Rabs_pos|exact X]).
  pose proof (K (vx p - vx c) _ A). pose proof (K (vy p - vy c) _ B). pose proof (K (vz p - vz c) _ C). pose proof (K r _ D). lra.
Qed.
Lemma fit_stationary : forall solve n d l d' c r, least_squares solve -> holds d l -> ~ coplanar l -> zSphere3DFit solve n d = Some (d', (c, r, true)) -> r <> 0 ->
  forall u s m, Rabs (vx u) <= m -> Rabs (vy u) <= m -> Rabs (vz u) <= m -> Rabs s <= m ->
  exists g, derivable_pt_lim (fun t => deviation l (vadd c (vscale t u)) (r + t * s)) 0 g /\ Rabs g <= 4 * zTOL * m * rsum (fun p => reach c r p * reach c r p) l.
Proof.
  intros solve n d l d' c r LS H NC E NR u s m A B C D. destruct (start_holds solve l NC d n H) as (d1 & H1 & E1). rewrite E1 in E. pose proof (loop_true solve l n _ _ _ _ _ _ H1 E) as T.
  pose proof (normal_eq solve l c r (u, s) LS NC NR) as N. set (x := solve (rows_of l c r) (errs_of l c r)) in *.
  exists (-4 * rsum (fun p => row_dot (vsub p c, r) (u, s) * err_of c r p) l). split.
  - destruct (deviation_line l c r u s) as (c2 & c3 & c4 & P). pose proof (quartic (deviation l c r) (-4 * rsum (fun p => row_dot (vsub p c, r) (u, s) * err_of c r p) l) c2 c3 c4) as Q.
    intros eps He. destruct (Q eps He) as (dl & K). exists dl. intros h Hn Hd. rewrite !P. apply (K h Hn Hd).
  - assert (S : rsum (fun p => row_dot (vsub p c, r) (u, s) * err_of c r p) l = rsum (fun p => row_dot (vsub p c, r) (u, s) * row_dot (vsub p c, r) x) l).
    { rewrite (fsum_ext _ (fun p => 1 * (row_dot (vsub p c, r) (u, s) * row_dot (vsub p c, r) x) + (-1) * (row_dot (vsub p c, r) (u, s) * err_of c r p))) in N by (intros p _; ring).
      rewrite (fsum_lin (fun p => row_dot (vsub p c, r) (u, s) * row_dot (vsub p c, r) x) (fun p => row_dot (vsub p c, r) (u, s) * err_of c r p)) in N. lra. }
    rewrite S, Rabs_mult, (Rabs_left (-4)) by lra. replace (4 * zTOL * m * rsum (fun p => reach c r p * reach c r p) l) with (4 * rsum (fun p => (zTOL * m) * (reach c r p * reach c r p) + 0 * 0) l) by (rewrite (fsum_lin (fun p => reach c r p * reach c r p) (fun _ => 0)); ring).
    apply Rle_trans with (4 * rsum (fun p => Rabs (row_dot (vsub p c, r) (u, s) * row_dot (vsub p c, r) x)) l); [pose proof (fsum_abs (fun p => row_dot (vsub p c, r) (u, s) * row_dot (vsub p c, r) x) l); lra|].
    apply Rmult_le_compat_l; [lra|]. apply fsum_le. intros p _. rewrite Rabs_mult. unfold step_tiny in T. rewrite !Bool.andb_true_iff, !zIsTiny_true in T. destruct T as (((T1 & T2) & T3) & T4).
    pose proof (row_bound p c r (u, s) m A B C D) as X1. pose proof (row_bound p c r x zTOL ltac:(lra) ltac:(lra) ltac:(lra) ltac:(lra)) as X2.
    replace (zTOL * m * (reach c r p * reach c r p) + 0 * 0) with ((m * reach c r p) * (zTOL * reach c r p)) by ring. apply Rmult_le_compat; try apply Rabs_pos; assumption.
Qed.
Lemma fit_plane : forall d l c r, holds d l -> coplanar l -> exists d' rows es, fit_system d c r = Some (d', (rows, es)) /\ length rows = length l /\ length es = length l /\ ~ full_rank rows.
Proof.
  intros d l c r H K. destruct (sys_holds d l c r H) as (d' & E & _). exists d', (rows_of l c r), (errs_of l c r). split; [exact E|]. unfold rows_of at 1, errs_of. rewrite !map_length. do 2 (split; [reflexivity|]). apply rank_lost. exact K.
Qed.
Lemma fit_none : forall solve n d, holds d [] -> zSphere3DFit solve n d = None.
Proof.
  intros solve n d H. unfold zSphere3DFit. destruct (zVec3DDataBarycenter d) as [[d1 [c|]]|] eqn:E; try reflexivity. exfalso. revert E. unfold zVec3DDataBarycenter.
  match goal with |- context [while_fetch _ _ ?s ?b] => destruct (while_holds b d [] s H) as (d2 & E2 & H2) end. rewrite E2. destruct (holds_wf d2 [] H2) as (W & C). rewrite size_spec by exact W. rewrite C. cbn.
  destruct (zVecXDDataIsEmpty d); [discriminate|]. unfold zVec3DDiv. destruct (Reqb_reflect 0 0) as [_|X]; [discriminate|congruence].
Qed.

(** ** Least-squares solutions exist: orthogonal projection on the columns, one column after the other *)
Section Proj.
Context {A : Type}.
Variable L : list A.
Definition ip (f g : A -> R) : R := fold_right (fun a s => f a * g a + s) 0 L.
Lemma ip_lin f g h a b : ip f (fun x => a * g x + b * h x) = a * ip f g + b * ip f h.
Proof. unfold ip. induction L as [|x m IH]; cbn [fold_right]; [lra|]. rewrite IH. lra. Qed.
Lemma ip_lin_l f g h a b : ip (fun x => a * g x + b * h x) f = a * ip g f + b * ip h f.
Proof. unfold ip. induction L as [|x m IH]; cbn [fold_right]; [lra|]. rewrite IH. lra. Qed.
Lemma ip_ext f g f' g' : (forall a, List.In a L -> f a * g a = f' a * g' a) -> ip f g = ip f' g'.
Proof. unfold ip. induction L as [|x m IH]; intros H; cbn [fold_right]; [reflexivity|]. rewrite IH by (intros a I; apply H; right; exact I). rewrite (H x) by (left; reflexivity). reflexivity. Qed.
Lemma ip_nonneg f : 0 <= ip f f.
Proof. unfold ip. induction L as [|x m IH]; cbn [fold_right]; [lra|]. pose proof (Rle_0_sqr (f x)). unfold Rsqr in *. lra. Qed.
Lemma ip_zero f : ip f f = 0 -> forall a, List.In a L -> f a = 0.
Proof.
  unfold ip. induction L as [|x m IH]; intros H a I; [destruct I|]. cbn [fold_right] in H. pose proof (Rle_0_sqr (f x)) as P. unfold Rsqr in P.
  assert (Q : 0 <= fold_right (fun a s => f a * f a + s) 0 m) by (clear; induction m as [|y m IH]; cbn [fold_right]; [lra|]; pose proof (Rle_0_sqr (f y)); unfold Rsqr in *; lra).
  destruct I as [->|I]; [apply Rsqr_0_uniq; unfold Rsqr; lra|]. apply IH; [lra|exact I].
Qed.
Fixpoint comb (xs : list R) (cols : list (A -> R)) (a : A) : R :=
  match xs, cols with x :: xs, c :: cols => x * c a + comb xs cols a | _, _ => 0 end.
Lemma comb_lin u v p q cols a : length u = length cols -> length v = length cols -> comb (map (fun w => p * fst w + q * snd w) (combine u v)) cols a = p * comb u cols a + q * comb v cols a.
Proof.
  revert u v. induction cols as [|c cols IH]; intros [|x u] [|y v] E F; try discriminate; cbn; [lra|]. rewrite IH by (injection E; injection F; auto). lra.
Qed.
Lemma projection cols : forall e, exists xs, length xs = length cols /\ forall f, List.In f cols -> ip f (fun a => comb xs cols a - e a) = 0.
Proof.
  induction cols as [|c cols IH]; intros e; [exists []; split; [reflexivity|intros f []]|].
  destruct (IH e) as (u & LU & U). destruct (IH c) as (v & LV & V).
  set (w := fun a => comb v cols a - c a). 
  (* w is the part of -c orthogonal to the other columns *)
  assert (K : exists t, ip c (fun a => t * c a + comb (map (fun z => 1 * fst z + (- t) * snd z) (combine u v)) cols a - e a) = 0).
  { assert (CW : ip c w = - ip w w).
    { assert (Z : ip (comb v cols) w = 0).
      { assert (G : forall ys fs, (forall f, List.In f fs -> ip f w = 0) -> ip (comb ys fs) w = 0).
        { induction ys as [|y ys IHy]; intros fs F; [cbn; unfold ip; clear; induction L as [|x m IH]; cbn [fold_right]; [reflexivity|rewrite IH; lra]|]. destruct fs as [|f fs]; [cbn; unfold ip; clear; induction L as [|x m IH]; cbn [fold_right]; [reflexivity|rewrite IH; lra]|].
          rewrite (ip_ext _ _ (fun a => y * f a + 1 * comb ys fs a) w) by (intros a _; cbn; ring). rewrite ip_lin_l, F by (left; reflexivity). rewrite IHy by (intros g I; apply F; right; exact I). lra. }
        apply G. exact V. }
      rewrite (ip_ext c w (fun a => 1 * comb v cols a + (-1) * w a) w) by (intros a _; unfold w; ring). rewrite ip_lin_l, Z. lra. }
    destruct (Req_dec (ip w w) 0) as [W|W].
    - exists 0. rewrite (ip_ext c _ (fun a => comb v cols a) (fun a => comb u cols a - e a)).
      + assert (G : forall ys fs, (forall f, List.In f fs -> ip f (fun a => comb u cols a - e a) = 0) -> ip (comb ys fs) (fun a => comb u cols a - e a) = 0).
        { induction ys as [|y ys IHy]; intros fs F; [cbn; unfold ip; clear; induction L as [|x m IH]; cbn [fold_right]; [reflexivity|rewrite IH; lra]|]. destruct fs as [|f fs]; [cbn; unfold ip; clear; induction L as [|x m IH]; cbn [fold_right]; [reflexivity|rewrite IH; lra]|].
          rewrite (ip_ext _ _ (fun a => y * f a + 1 * comb ys fs a) (fun a => comb u cols a - e a)) by (intros a _; cbn; ring). rewrite ip_lin_l, F by (left; reflexivity). rewrite IHy by (intros g I; apply F; right; exact I). lra. }
        apply G. exact U.
      + intros a I. pose proof (ip_zero w W a I) as Z. unfold w in Z. rewrite comb_lin by assumption. replace (c a) with (comb v cols a) by lra. ring.
    - exists (- ip c (fun a => comb u cols a - e a) / ip w w). set (t := - _ / _). rewrite (ip_ext c _ c (fun a => (- t) * w a + 1 * (comb u cols a - e a))) by (intros a _; rewrite comb_lin by assumption; unfold w; ring).
      rewrite ip_lin, CW. unfold t. field. exact W. }
  destruct K as (t & K). exists (t :: map (fun z => 1 * fst z + (- t) * snd z) (combine u v)). split.
  - cbn. rewrite map_length, combine_length, LU, LV, Nat.min_id. reflexivity.
  - intros f [<-|I].
    + rewrite <- K. apply ip_ext. intros a _. reflexivity.
    + rewrite (ip_ext f _ f (fun a => (- t) * w a + 1 * (comb u cols a - e a))) by (intros a _; cbn [comb]; rewrite comb_lin by assumption; unfold w; ring).
      rewrite ip_lin, U by exact I. unfold w. rewrite V by exact I. lra.
Qed.
End Proj.
Lemma ls_sum rows : forall es x, length rows = length es -> sq_err rows es x = ip (combine rows es) (fun a => row_dot (fst a) x - snd a) (fun a => row_dot (fst a) x - snd a).
Proof. induction rows as [|a rows IH]; intros [|e es] x H; try discriminate; [reflexivity|]. cbn [sq_err combine]. rewrite IH by (injection H; auto). reflexivity. Qed.
Lemma ls_exists rows es : length rows = length es -> exists x, forall y, sq_err rows es x <= sq_err rows es y.
Proof.
  intros HL. set (M := combine rows es). destruct (projection M [fun a => vx (fst (fst a)); fun a => vy (fst (fst a)); fun a => vz (fst (fst a)); fun a => snd (fst a)] snd) as (xs & LX & P).
  destruct xs as [|a [|b [|c [|s [|]]]]]; try discriminate. exists (V3 a b c, s). intros y. rewrite !ls_sum by exact HL. fold M. set (x := (V3 a b c, s)). set (res := fun k : vec3 * R * R => row_dot (fst k) x - snd k).
  assert (O : forall f, List.In f [fun k : vec3 * R * R => vx (fst (fst k)); fun k => vy (fst (fst k)); fun k => vz (fst (fst k)); fun k => snd (fst k)] -> ip M f res = 0).
  { intros f I. rewrite <- (P f I). apply ip_ext. intros k _. f_equal. unfold res, row_dot, dot, x. cbn. ring. }
  set (h := fun k : vec3 * R * R => row_dot (fst k) y - row_dot (fst k) x).
  assert (Z : ip M res h = 0).
  { rewrite (ip_ext M res h (fun k => 1 * ((vx (fst y) - a) * vx (fst (fst k)) + (vy (fst y) - b) * vy (fst (fst k))) + 1 * ((vz (fst y) - c) * vz (fst (fst k)) + (snd y - s) * snd (fst k))) res) by (intros k _; unfold h, row_dot, dot, x; cbn; ring).
    rewrite (ip_lin_l M res (fun k => (vx (fst y) - a) * vx (fst (fst k)) + (vy (fst y) - b) * vy (fst (fst k))) (fun k => (vz (fst y) - c) * vz (fst (fst k)) + (snd y - s) * snd (fst k))).
    rewrite (ip_lin_l M res (fun k => vx (fst (fst k))) (fun k => vy (fst (fst k)))), (ip_lin_l M res (fun k => vz (fst (fst k))) (fun k => snd (fst k))).
    rewrite !O by (cbn; tauto). ring. }
  rewrite (ip_ext M (fun k => row_dot (fst k) y - snd k) _ (fun k => 1 * res k + 1 * h k) (fun k => 1 * res k + 1 * h k)) by (intros k _; unfold res, h; ring).
  rewrite (ip_lin M (fun k => 1 * res k + 1 * h k) res h), !(ip_lin_l M _ res h), Z. rewrite (ip_ext M h res res h) by (intros; ring). rewrite Z. pose proof (ip_nonneg M h). lra.
Qed.
Definition ls_solver (rows : list (vec3 * R)) (es : list R) : vec3 * R := epsilon (inhabits (V3 0 0 0, 0)) (fun x => forall y, sq_err rows es x <= sq_err rows es y).
Lemma ls_solver_ok : least_squares ls_solver.
Proof. intros rows es H _. apply (epsilon_spec (inhabits (V3 0 0 0, 0)) (fun x => forall y, sq_err rows es x <= sq_err rows es y)). apply ls_exists. exact H. Qed.

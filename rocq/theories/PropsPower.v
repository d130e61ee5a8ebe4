(** C89: eigenvalues by the power method. *)
From Verif Require Import Base Spec SpecPower ModelVec ModelMat ModelPower FactsVec FactsMat FactsPower.
From Coq Require Lra Lia Psatz.
Open Scope R_scope.

(** a factor greater in magnitude than the others is found from every start that leans towards its direction *)
Theorem C89_dominant : forall m u1 u2 u3 l1 l2 l3 s junk c, spectrum m u1 u2 u3 l1 l2 l3 -> Rabs l2 < Rabs l1 -> Rabs l3 < Rabs l1 -> ~ negligible s -> 0 < c -> c * norm s <= Rabs (dot u1 s) -> 4 * zTOL <= Rabs l1 * c ->
  exists N, forall n, (N <= n)%nat -> exists l e, zMat3DEigPower n m s junk = (l, e, true) /\ Rabs (l - l1) * c <= 2 * zTOL /\ norm (vsub (mvec m e) (vscale l e)) <= 4 * zTOL /\
    (exists u, norm u = 1 /\ Rabs l1 * norm (vsub e u) <= 4 * zTOL) /\
    (forall g, 4 * zTOL <= g * c -> g <= Rabs (l1 - l2) -> g <= Rabs (l1 - l3) -> dot u2 e * dot u2 e + dot u3 e * dot u3 e <= (7 * zTOL / g) * (7 * zTOL / g)).
Proof. exact power_limit. Qed.
Print Assumptions C89_dominant.
(** any matrix: where the iteration stops by itself, the image of a unit vector is the value times that vector, up to the tolerance *)
Theorem C89_stop : forall n m s junk l e, ~ negligible s -> zMat3DEigPower n m s junk = (l, e, true) ->
  exists u, norm u = 1 /\ l = dot u (mvec m u) /\ negligible (vsub (mvec m u) (vscale l u)) /\ (l <> 0 -> vscale l e = mvec m u) /\ (l = 0 -> e = mvec m u).
Proof. exact power_stop. Qed.
Print Assumptions C89_stop.
(** then the value is near one of the factors *)
Theorem C89_near : forall m u1 u2 u3 l1 l2 l3 n s junk l e, spectrum m u1 u2 u3 l1 l2 l3 -> ~ negligible s -> zMat3DEigPower n m s junk = (l, e, true) ->
  Rabs (l - l1) < 2 * zTOL \/ Rabs (l - l2) < 2 * zTOL \/ Rabs (l - l3) < 2 * zTOL.
Proof. exact power_near_any. Qed.
Print Assumptions C89_near.
(** the factor of least magnitude of a well-conditioned matrix is found by the inverse *)
Theorem C89_least : forall m u1 u2 u3 l1 l2 l3 s junk old c, spectrum m u1 u2 u3 l1 l2 l3 -> well_conditioned m -> 0 < Rabs l1 -> Rabs l1 < Rabs l2 -> Rabs l1 < Rabs l3 -> ~ negligible s -> 0 < c -> c * norm s <= Rabs (dot u1 s) -> 4 * zTOL * Rabs l1 <= c ->
  exists N, forall n, (N <= n)%nat -> exists v e, zMat3DEigPowerInv n m s junk old = Some (v, e, true) /\ Rabs (v - l1) * c <= 4 * zTOL * Rsqr l1 /\ (exists u, norm u = 1 /\ norm (vsub e u) <= 4 * zTOL * Rabs l1) /\
    (forall g, 4 * zTOL <= g * c -> g <= Rabs (/ l1 - / l2) -> g <= Rabs (/ l1 - / l3) -> dot u2 e * dot u2 e + dot u3 e * dot u3 e <= (7 * zTOL / g) * (7 * zTOL / g)).
Proof. exact power_least. Qed.
Print Assumptions C89_least.
(** a matrix with a factor 0 has no answer *)
Theorem C89_singular : forall m u1 u2 u3 l1 l2 l3, spectrum m u1 u2 u3 l1 l2 l3 -> l1 = 0 -> forall n s junk old, zMat3DEigPowerInv n m s junk old = None.
Proof. exact spectrum_det. Qed.
Print Assumptions C89_singular.
(** a start along any eigenvector returns its factor, dominant or not; for the factor 0 the vector is null *)
Theorem C89_start_refuted : forall n m l s junk, ~ negligible s -> eigen m l s -> exists e, zMat3DEigPower (Datatypes.S n) m s junk = (l, e, true) /\ (l <> 0 -> norm e = 1 /\ vscale (norm s) e = s) /\ (l = 0 -> e = v3zero).
Proof. exact power_along. Qed.
Print Assumptions C89_start_refuted.
(** opposite factors: the answer is no factor, whatever the number of steps *)
Theorem C89_opposite_refuted : forall n junk, exists e, zMat3DEigPower (Datatypes.S n) mirror (V3 2 1 0) junk = (3/5, e, false) /\ forall l u, norm u = 1 -> eigen mirror l u -> l = 1 \/ l = -1 \/ l = 0.
Proof. exact power_opposite. Qed.
Print Assumptions C89_opposite_refuted.
(** three factors and a start that leans to all of them *)
Example C89_ex : spectrum (M3 2 0 0 0 (-3) 0 0 0 1) (V3 0 1 0) (V3 1 0 0) (V3 0 0 1) (-3) 2 1 /\ Rabs 2 < Rabs (-3) /\ Rabs 1 < Rabs (-3) /\ ~ negligible (V3 1 1 1) /\
  (1/2) * norm (V3 1 1 1) <= Rabs (dot (V3 0 1 0) (V3 1 1 1)) /\ 4 * zTOL <= Rabs (-3) * (1/2) /\ 4 * zTOL <= 1 * (1/2) /\ 1 <= Rabs (-3 - 2) /\ 1 <= Rabs (-3 - 1).
Proof.
  pose proof zTOL_small. split; [|split; [|split; [|split; [|split; [|split; [|split; [|split]]]]]]].
  - unfold spectrum, eigen. repeat split; spec_unfold_g; try Lra.lra; f_equal; Lra.lra.
  - rewrite (Rabs_right 2), (Rabs_left (-3)); Lra.lra.
  - rewrite (Rabs_right 1), (Rabs_left (-3)); Lra.lra.
  - intros (A & _). cbn [vx] in A. rewrite Rabs_right in A by Lra.lra. Lra.lra.
  - assert (N : norm (V3 1 1 1) <= 2) by (apply norm_le; [Lra.lra|unfold dot; cbn [vx vy vz]; Lra.lra]). unfold dot. cbn [vx vy vz]. rewrite Rabs_right; Lra.lra.
  - rewrite (Rabs_left (-3)); Lra.lra.
  - Lra.lra.
  - rewrite (Rabs_left (-3 - 2)); Lra.lra.
  - rewrite (Rabs_left (-3 - 1)); Lra.lra.
Qed.
(** so some number of steps finds the factor -3 within 4e-12 *)
Example C89_ex_run : exists n l e, zMat3DEigPower n (M3 2 0 0 0 (-3) 0 0 0 1) (V3 1 1 1) (V3 0 0 0) = (l, e, true) /\ Rabs (l - -3) <= 4 * zTOL.
Proof.
  destruct C89_ex as (S & A & B & N & D & L & _). destruct (power_limit _ _ _ _ _ _ _ _ (V3 0 0 0) (1/2) S A B N ltac:(Lra.lra) D L) as (n & G). destruct (G n (le_n n)) as (l & e & E & X & _). exists n, l, e. split; [exact E|]. Lra.lra.
Qed.
(** the same matrix is well conditioned, and 1 is its factor of least magnitude *)
Example C89_ex_least : spectrum (M3 2 0 0 0 (-3) 0 0 0 1) (V3 0 0 1) (V3 1 0 0) (V3 0 1 0) 1 2 (-3) /\ well_conditioned (M3 2 0 0 0 (-3) 0 0 0 1) /\ 0 < Rabs 1 /\ Rabs 1 < Rabs 2 /\ Rabs 1 < Rabs (-3) /\ (1/2) * norm (V3 1 1 1) <= Rabs (dot (V3 0 0 1) (V3 1 1 1)) /\ 4 * zTOL * Rabs 1 <= 1/2.
Proof.
  pose proof zTOL_small. pose proof zTOL_pos. assert (W : well_conditioned (M3 2 0 0 0 (-3) 0 0 0 1)).
  { exists 3. split; [|split; [Lra.lra|]].
    - intros [|[|[|r]]] [|[|[|c]]]; unfold mnth; cbn; unfold Rabs; destruct (Rcase_abs _); Lra.lra.
    - unfold mdet, det3v, dot, cross, col0, col1, col2, vx, vy, vz, cxx, cxy, cxz, cyx, cyy, cyz, czx, czy, czz. unfold Rabs. destruct (Rcase_abs _); Lra.lra. }
  rewrite (Rabs_right 1), (Rabs_right 2), (Rabs_left (-3)) by Lra.lra. split; [|split; [exact W|repeat split]]; try Lra.lra.
  - unfold spectrum, eigen. repeat split; spec_unfold_g; try Lra.lra; f_equal; Lra.lra.
  - assert (N : norm (V3 1 1 1) <= 2) by (apply norm_le; [Lra.lra|unfold dot; cbn [vx vy vz]; Lra.lra]). unfold dot. cbn [vx vy vz]. rewrite Rabs_right; Lra.lra.
Qed.
(** a start along a lesser factor, and a matrix with the factor 0 *)
Example C89_ex_lesser : eigen (M3 2 0 0 0 1 0 0 0 0) 1 (V3 0 1 0) /\ eigen (M3 2 0 0 0 1 0 0 0 0) 0 (V3 0 0 1) /\ ~ negligible (V3 0 1 0) /\ ~ negligible (V3 0 0 1) /\ spectrum (M3 2 0 0 0 1 0 0 0 0) (V3 0 0 1) (V3 1 0 0) (V3 0 1 0) 0 2 1.
Proof.
  pose proof zTOL_small. split; [|split; [|split; [|split]]].
  - unfold eigen. spec_unfold_g. f_equal; Lra.lra.
  - unfold eigen. spec_unfold_g. f_equal; Lra.lra.
  - intros (_ & A & _). cbn [vy] in A. rewrite Rabs_right in A by Lra.lra. Lra.lra.
  - intros (_ & _ & A). cbn [vz] in A. rewrite Rabs_right in A by Lra.lra. Lra.lra.
  - unfold spectrum, eigen. repeat split; spec_unfold_g; try Lra.lra; f_equal; Lra.lra.
Qed.

(** A pyramid that is not closed; examples. *)
From Coq Require Import Permutation.
From Verif Require Import Base SpecClip SpecMesh ModelPrism FactsVec FactsAlg FactsElem FactsClip FactsClip2 FactsClip3 FactsClip4 FactsClip5 FactsPH FactsPH2 FactsPH4 FactsPrism FactsPrism2 FactsPrism3 FactsPrism4 FactsPrism5 FactsPrism6.
From Coq Require Import List Lia Lra.
Import ListNotations.
Open Scope R_scope.
Lemma midleft_num : zTriangulateNum (midleft ++ [V3 1 1 1]) (seq 0 5) = Some [(2, 3, 4); (1, 2, 3); (0, 1, 2)]%nat.
Proof.
  unfold zTriangulateNum. change (map (vertAt (midleft ++ [V3 1 1 1])) (seq 0 5)) with midleft. unfold midleft at 1. rewrite midleft_norm. unfold midleft. cbn [length app seq clipLoopNum Nat.leb clipScanNum]. rewrite !zero_refuses. cbn [rev app length clipLoopNum Nat.leb clipScanNum andb]. rewrite !zero_refuses. cbn [rev app length clipLoopNum Nat.leb clipScanNum andb]. rewrite !zero_refuses. reflexivity.
Qed.
Lemma align_cases vs ref f : idx (alignN vs ref f) = f \/ idx (alignN vs ref f) = turned f.
Proof. unfold alignN. destruct f as ((a, b), c). destruct (Rltb _ 0); cbn; auto. Qed.
Lemma pyramid_open : exists l a ph, norm (V3 0 0 1) = 1 /\ planar v3zero (V3 0 0 1) l /\ dot (V3 0 0 1) (vsub a v3zero) = 1 /\ NoDup l /\ zPH3DCreatePyramid l a = Some (Some ph) /\ ~ closed (ph_faces ph).
Proof.
  destruct (pyr_form midleft (V3 1 1 1)) as (tb & flip & Eb & _ & _ & _ & E); [cbn; lia|]. exists midleft, (V3 1 1 1). eexists. cbv zeta in *. split; [unfold norm; replace (dot (V3 0 0 1) (V3 0 0 1)) with 1 by (spec_unfold; cbn; ring); apply sqrt_1|].
  split; [split; [intros Q; apply (f_equal vz) in Q; cbn in Q; lra|]; intros p I; cbn [midleft List.In] in I; decompose [or] I; subst; try contradiction; spec_unfold; cbn; lra|]. split; [spec_unfold; cbn; ring|]. split.
  { unfold midleft. repeat constructor; cbn [List.In]; intros Q; decompose [or] Q; try contradiction; match goal with H : V3 _ _ _ = V3 _ _ _ |- _ => pose proof (f_equal vx H) as Q1; pose proof (f_equal vy H) as Q2; cbn in Q1, Q2; lra end. }
  split; [exact E|]. clear E. change (length midleft) with 5%nat in *. rewrite midleft_num in Eb. injection Eb as <-. rewrite faces_idx, map_app, idx_side. cbn [map]. intros C.
  set (vs := midleft ++ [V3 1 1 1]) in *. set (ref := zVec3DSub _ _) in *.
  destruct (align_cases vs ref (2, 3, 4)%nat) as [E1|E1]; rewrite E1 in C; destruct (align_cases vs ref (1, 2, 3)%nat) as [E2|E2]; rewrite E2 in C; destruct (align_cases vs ref (0, 1, 2)%nat) as [E3|E3]; rewrite E3 in C; destruct flip; unfold closed in C; cbv in C;
  first [assert (I := Permutation_in (4, 0)%nat C ltac:(cbv; tauto)); cbv in I; decompose [or] I; congruence | assert (I := Permutation_in (0, 4)%nat C ltac:(cbv; tauto)); cbv in I; decompose [or] I; congruence].
Qed.
(** fewer than three corners: faces are read that were never written *)
Lemma sweep_small l : (length l < 3)%nat -> forall s a, zPH3DCreatePrism l s = None /\ zPH3DCreatePyramid l a = None.
Proof.
  intros L s a. destruct l as [|u [|v [|w r]]]; [split; reflexivity|split; reflexivity|split; reflexivity|cbn in L; lia].
Qed.
Lemma quad_walls s : (1 <= vz s)%R -> forall i, (i < length quad)%nat -> ~ negligible (cross (side_of quad i) s).
Proof.
  intros S i I (A & B & _). pose proof zTOL_pos as T0. pose proof zTOL_small as T1. destruct s as [x y z]. cbn [vz] in S. cbn [length quad] in I.
  assert (i = 0 \/ i = 1 \/ i = 2 \/ i = 3)%nat as [->|[->|[->| ->]]] by lia; unfold side_of in A, B; cbn [length quad Nat.add Nat.modulo Nat.divmod fst snd Nat.sub nth] in A, B; unfold cross, vsub in A, B; cbn [vx vy vz] in A, B; apply Rabs_def2 in A; apply Rabs_def2 in B; lra.
Qed.
Lemma quad_cone : forall i, (i < length quad)%nat -> ~ negligible (cross (side_of quad i) (vsub (V3 0 0 1) (nth i quad v3zero))).
Proof.
  intros i I (A & B & _). pose proof zTOL_pos as T0. pose proof zTOL_small as T1. cbn [length quad] in I.
  assert (i = 0 \/ i = 1 \/ i = 2 \/ i = 3)%nat as [->|[->|[->| ->]]] by lia; unfold side_of in A, B; cbn [length quad Nat.add Nat.modulo Nat.divmod fst snd Nat.sub nth] in A, B; unfold cross, vsub in A, B; cbn [vx vy vz] in A, B; apply Rabs_def2 in A; apply Rabs_def2 in B; lra.
Qed.
Lemma quad_inside : enclosed v3zero (V3 0 0 1) quad (V3 (1/2) (1/2) 0).
Proof.
  split; [unfold dot, vsub, v3zero; cbn [vx vy vz]; lra|]. intros i I. cbn [length quad] in I.
  assert (i = 0 \/ i = 1 \/ i = 2 \/ i = 3)%nat as [->|[->|[->| ->]]] by lia; unfold side_of; cbn [length quad Nat.add Nat.modulo Nat.divmod fst snd Nat.sub nth]; unfold cross, vsub, dot; cbn [vx vy vz]; lra.
Qed.
Lemma prism_closed : forall o m l s, norm m = 1 -> planar o m l -> (3 <= length l)%nat -> dot m s <> 0 ->
  exists ph, zPH3DCreatePrism l s = Some (Some ph) /\ pverts ph = l ++ map (fun b => vadd b s) l /\ length (pfaces ph) = (4 * (length l - 1))%nat /\ fresh ph /\
  (stuck l \/ (indices_below (length (pverts ph)) (ph_faces ph) /\ proper_faces (ph_faces ph) /\ oriented (ph_faces ph) /\ zPH3DVolume ph = Some (Rabs (dot m s) * Rabs (loop_area m l) / 2) /\ loop_area m l <> 0)).
Proof. intros o m l s U P N D. exact (prism_main o m l s U P N D). Qed.
Lemma pyramid_closed : forall o m l a, norm m = 1 -> planar o m l -> (3 <= length l)%nat -> dot m (vsub a o) <> 0 ->
  exists ph, zPH3DCreatePyramid l a = Some (Some ph) /\ pverts ph = l ++ [a] /\ length (pfaces ph) = (2 * (length l - 1))%nat /\ fresh ph /\
  (stuck l \/ (indices_below (length (pverts ph)) (ph_faces ph) /\ proper_faces (ph_faces ph) /\ oriented (ph_faces ph) /\ zPH3DVolume ph = Some (Rabs (dot m (vsub a o)) * Rabs (loop_area m l) / 6) /\ loop_area m l <> 0)).
Proof. intros o m l a U P N D. exact (pyramid_main o m l a U P N D). Qed.
Lemma prism_points : forall o m l s, norm m = 1 -> planar o m l -> (3 <= length l)%nat -> convex_order m l -> dot m s <> 0 -> (forall i, (i < length l)%nat -> ~ negligible (cross (side_of l i) s)) ->
  exists ph, zPH3DCreatePrism l s = Some (Some ph) /\ oriented (ph_faces ph) /\ zPH3DVolume ph = Some (Rabs (dot m s) * loop_area m l / 2) /\ 0 < loop_area m l /\
  forall p, zPH3DPointIsInside ph p 0 = Some true <-> exists q t, enclosed o m l q /\ 0 < t < 1 /\ p = vadd q (vscale t s).
Proof. intros o m l s U P N H D W. exact (prism_convex o m l U P N H s D W). Qed.
Lemma pyramid_points : forall o m l a, norm m = 1 -> planar o m l -> (3 <= length l)%nat -> convex_order m l -> dot m (vsub a o) <> 0 -> (forall i, (i < length l)%nat -> ~ negligible (cross (side_of l i) (vsub a (nth i l v3zero)))) ->
  exists ph, zPH3DCreatePyramid l a = Some (Some ph) /\ oriented (ph_faces ph) /\ zPH3DVolume ph = Some (Rabs (dot m (vsub a o)) * loop_area m l / 6) /\ 0 < loop_area m l /\
  forall p, zPH3DPointIsInside ph p 0 = Some true <-> exists q t, enclosed o m l q /\ 0 < t < 1 /\ p = vadd q (vscale t (vsub a q)).
Proof. intros o m l a U P N H D W. exact (pyramid_convex o m l U P N H a D W). Qed.

(** Property C70: prisms and pyramids over loops. *)
From Verif Require Import Base Spec SpecGeom SpecHull SpecClip SpecMesh ModelVec ModelElem ModelClip ModelPH ModelPrism FactsVec FactsAlg FactsElem FactsClip5 FactsPH2 FactsPrism7.
From Coq Require Import List Lra Lia.
Import ListNotations.
Open Scope R_scope.

(** the bottom need not be convex nor run a given way round; the sweep may be oblique, up or down. [oriented]: every directed side of a face is used once, and its reverse too; [loop_area]: twice the signed area *)
Theorem C70_prism : forall o m l s, norm m = 1 -> planar o m l -> (3 <= length l)%nat -> dot m s <> 0 ->
  exists ph, zPH3DCreatePrism l s = Some (Some ph) /\ pverts ph = l ++ map (fun b => vadd b s) l /\ length (pfaces ph) = (4 * (length l - 1))%nat /\ fresh ph /\
  (stuck l \/ (indices_below (length (pverts ph)) (ph_faces ph) /\ proper_faces (ph_faces ph) /\ oriented (ph_faces ph) /\ zPH3DVolume ph = Some (Rabs (dot m s) * Rabs (loop_area m l) / 2) /\ loop_area m l <> 0)).
Proof. exact prism_closed. Qed.
Print Assumptions C70_prism.
Theorem C70_pyramid : forall o m l a, norm m = 1 -> planar o m l -> (3 <= length l)%nat -> dot m (vsub a o) <> 0 ->
  exists ph, zPH3DCreatePyramid l a = Some (Some ph) /\ pverts ph = l ++ [a] /\ length (pfaces ph) = (2 * (length l - 1))%nat /\ fresh ph /\
  (stuck l \/ (indices_below (length (pverts ph)) (ph_faces ph) /\ proper_faces (ph_faces ph) /\ oriented (ph_faces ph) /\ zPH3DVolume ph = Some (Rabs (dot m (vsub a o)) * Rabs (loop_area m l) / 6) /\ loop_area m l <> 0)).
Proof. exact pyramid_closed. Qed.
Print Assumptions C70_pyramid.
(** convex bottoms are never stuck, and the inside is that of the swept polygon *)
Theorem C70_prism_inside : forall o m l s, norm m = 1 -> planar o m l -> (3 <= length l)%nat -> convex_order m l -> dot m s <> 0 -> (forall i, (i < length l)%nat -> ~ negligible (cross (side_of l i) s)) ->
  exists ph, zPH3DCreatePrism l s = Some (Some ph) /\ oriented (ph_faces ph) /\ zPH3DVolume ph = Some (Rabs (dot m s) * loop_area m l / 2) /\ 0 < loop_area m l /\
  forall p, zPH3DPointIsInside ph p 0 = Some true <-> exists q t, enclosed o m l q /\ 0 < t < 1 /\ p = vadd q (vscale t s).
Proof. exact prism_points. Qed.
Print Assumptions C70_prism_inside.
Theorem C70_pyramid_inside : forall o m l a, norm m = 1 -> planar o m l -> (3 <= length l)%nat -> convex_order m l -> dot m (vsub a o) <> 0 -> (forall i, (i < length l)%nat -> ~ negligible (cross (side_of l i) (vsub a (nth i l v3zero)))) ->
  exists ph, zPH3DCreatePyramid l a = Some (Some ph) /\ oriented (ph_faces ph) /\ zPH3DVolume ph = Some (Rabs (dot m (vsub a o)) * loop_area m l / 6) /\ 0 < loop_area m l /\
  forall p, zPH3DPointIsInside ph p 0 = Some true <-> exists q t, enclosed o m l q /\ 0 < t < 1 /\ p = vadd q (vscale t (vsub a q)).
Proof. exact pyramid_points. Qed.
Print Assumptions C70_pyramid_inside.
(** a square with a corner in the middle of its left side, taken first: ear clipping is stuck, and the pyramid has a gap *)
Theorem C70_open_refuted : exists l a ph, norm (V3 0 0 1) = 1 /\ planar v3zero (V3 0 0 1) l /\ dot (V3 0 0 1) (vsub a v3zero) = 1 /\ NoDup l /\ zPH3DCreatePyramid l a = Some (Some ph) /\ ~ closed (ph_faces ph).
Proof. exact pyramid_open. Qed.
Print Assumptions C70_open_refuted.
(** fewer than three corners: faces are read that were never written *)
Theorem C70_small : forall l, (length l < 3)%nat -> forall s a, zPH3DCreatePrism l s = None /\ zPH3DCreatePyramid l a = None.
Proof. exact sweep_small. Qed.
Print Assumptions C70_small.
Example C70_ex : exists ph, zPH3DCreatePrism quad (V3 1 0 3) = Some (Some ph) /\ oriented (ph_faces ph) /\ zPH3DPointIsInside ph (V3 1 (1/2) (3/2)) 0 = Some true.
Proof.
  destruct quad_order as (U & P & C). destruct (C70_prism_inside v3zero (V3 0 0 1) quad (V3 1 0 3) U P ltac:(cbn; Lia.lia) C) as (ph & E & Or & _ & _ & I); [unfold dot; cbn; Lra.lra|apply quad_walls; cbn; Lra.lra|]. exists ph. split; [exact E|]. split; [exact Or|]. apply I. exists (V3 (1/2) (1/2) 0), (1/2). split; [exact quad_inside|]. split; [Lra.lra|]. apply vec3_ext; spec_unfold; cbn; Lra.lra.
Qed.
Example C70_ex_pyramid : exists ph, zPH3DCreatePyramid quad (V3 0 0 1) = Some (Some ph) /\ oriented (ph_faces ph).
Proof.
  destruct quad_order as (U & P & C). destruct (C70_pyramid_inside v3zero (V3 0 0 1) quad (V3 0 0 1) U P ltac:(cbn; Lia.lia) C) as (ph & E & Or & _); [unfold dot, vsub, v3zero; cbn; Lra.lra|apply quad_cone|]. exists ph. auto.
Qed.

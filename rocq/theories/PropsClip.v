(** Property C56: triangulation of loops and lists of triangles. *)
From Verif Require Import Base Spec SpecGeom SpecHull SpecClip ModelVec ModelElem ModelClip FactsVec FactsAlg FactsElem FactsClip FactsClip3 FactsClip4 FactsClip5.
From Coq Require Import List Lra Lia ZArith.
Import ListNotations.
Open Scope R_scope.

(** [tiled o n l ts]: the triangles [ts] turn the same way, their areas add up to that of the loop, they cover every point the loop winds around, no two overlap at a point it winds around once and none holds a point it does not wind around; [reduces n l ts l']: cutting the corners [ts] in turn leaves [l']; [earless]: no corner but possibly the last is an ear *)
(** always terminates with two triangles less than corners, all made of corners of the loop *)
Theorem C56_count : forall l, l <> [] -> exists ts, zLoop3DTriangulate l = Some ts /\ length ts = (length l - 2)%nat /\ forall t, List.In t ts -> List.In (tv0 t) l /\ List.In (tv1 t) l /\ List.In (tv2 t) l.
Proof. exact triangulate_count. Qed.
Print Assumptions C56_count.
(** in a plane: the triangles tile the loop, the sense of turns being that at the leftmost corner, unless at some stage no ear is found among the corners but the last *)
Theorem C56_tiling : forall o m l, l <> [] -> planar o m l -> exists ts i, zLoop3DTriangulate l = Some ts /\ leftmost l i /\ let n := corner_normal l i in
  (n <> v3zero -> tiled o n l (map cornersOf ts) \/ exists done rest l', ts = done ++ rest /\ reduces n l (map cornersOf done) l' /\ earless n l').
Proof. exact triangulate_main. Qed.
Print Assumptions C56_tiling.
(** a convex loop without nearly aligned corners is always tiled *)
Theorem C56_convex : forall o m l, norm m = 1 -> planar o m l -> (3 <= length l)%nat -> convex_order m l -> exists ts, zLoop3DTriangulate l = Some ts /\ length ts = (length l - 2)%nat /\ tiled o m l (map cornersOf ts).
Proof. exact triangulate_convex. Qed.
Print Assumptions C56_convex.
(** a square with an extra corner on its left side, taken first: a point of it is in no triangle and another one is in two *)
Theorem C56_tiling_refuted : exists l ts p q t t' r, let n := V3 0 0 1 in let w := V3 0 1 0 in planar v3zero n l /\ zLoop3DTriangulate l = Some ts /\
  winding n w p l = 1%Z /\ (forall s, List.In s ts -> ~ closure (cornersOf s) p) /\ winding n w q l = 1%Z /\ ts = t :: t' :: r /\ inner (cornersOf t) q /\ inner (cornersOf t') q.
Proof. exact triangulate_fails. Qed.
Print Assumptions C56_tiling_refuted.
(** aligned triangles face the reference direction and keep their corners *)
Theorem C56_align : forall l ref, (forall t, List.In t l -> made t) -> let l' := zTri3DListAlign l ref in length l' = length l /\
  (forall t, List.In t l' -> 0 <= dot ref (cross (vsub (tv1 t) (tv0 t)) (vsub (tv2 t) (tv0 t))) /\ 0 <= dot ref (tnorm t)) /\
  (forall i d, (i < length l)%nat -> let t := nth i l d in let t' := nth i l' d in tv0 t' = tv0 t /\ ((tv1 t' = tv1 t /\ tv2 t' = tv2 t) \/ (tv1 t' = tv2 t /\ tv2 t' = tv1 t))).
Proof. exact align_facts. Qed.
Print Assumptions C56_align.
(** the array gets the first triangles; one is written even for the size 0 *)
Theorem C56_copy : forall (l : list tri3) n, length (zTri3DListCopyArray l n) = Nat.min (Nat.max 1 n) (length l) /\ forall i d, (i < length (zTri3DListCopyArray l n))%nat -> nth i (zTri3DListCopyArray l n) d = nth i l d.
Proof. exact copy_facts. Qed.
Print Assumptions C56_copy.
Example C56_ex : exists ts, zLoop3DTriangulate quad = Some ts /\ length ts = 2%nat /\ tiled v3zero (V3 0 0 1) quad (map cornersOf ts).
Proof. destruct quad_order as (U & P & C). exact (C56_convex v3zero (V3 0 0 1) quad U P ltac:(cbn; lia) C). Qed.
Example C56_ex_plane : quad <> [] /\ planar v3zero (V3 0 0 1) quad.
Proof. split; [discriminate|apply quad_order]. Qed.
Example C56_ex_leftmost : leftmost quad 0 /\ corner_normal quad 0 <> v3zero.
Proof.
  split; [split; [cbn; lia|split; [intros j J; lia|]]|].
  - intros j J. cbn [length quad] in J. assert (j = 1 \/ j = 2 \/ j = 3)%nat as [->|[->| ->]] by lia; cbn; lra.
  - intros E. apply (f_equal vz) in E. revert E. unfold corner_normal. cbn. unfold cross, vsub. cbn. lra.
Qed.
Example C56_ex_align : let t := snd (zTri3DCreate (V3 0 0 0) (V3 1 0 0) (V3 0 1 0)) in forall s, List.In s (zTri3DListAlign [t] (V3 0 0 (-1))) -> 0 <= dot (V3 0 0 (-1)) (tnorm s).
Proof. cbv zeta. intros s I. assert (M : forall t, List.In t [snd (zTri3DCreate (V3 0 0 0) (V3 1 0 0) (V3 0 1 0))] -> made t) by (intros t [<-|[]]; do 3 eexists; reflexivity). destruct (C56_align _ (V3 0 0 (-1)) M) as (_ & H & _). apply (H s I). Qed.

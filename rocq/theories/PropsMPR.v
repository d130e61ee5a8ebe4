(** C92: penetration depth by Minkowski portal refinement. *)
From Verif Require Import Base Spec SpecGeom SpecHull SpecGJK SpecMPR ModelElem ModelGJK ModelMPR FactsMPR4.
From Coq Require Import List.
From Coq Require Lra Lia.
Import ListNotations.
Open Scope R_scope.

(** moved by depth along dir, the second set is apart from the first up to the tolerance, and only just: a displacement next to it leaves a common point *)
Theorem C92_depth : forall fuel iter l1 l2 M depth pos dir, (forall x, difference l1 l2 x -> norm x <= M) -> zMPRDepth fuel iter l1 l2 = Some (Some (depth, pos, dir)) ->
  (depth = 0 /\ dir = v3zero \/ 0 < depth /\ norm dir = 1) /\ separating (2 * zTOL) l1 l2 (vscale depth dir) /\ touching (6 * zTOL * (M + 1)) l1 l2 (vscale depth dir).
Proof. exact mpr_depth. Qed.
Print Assumptions C92_depth.
(** what the three results are: those of the refined portal, or of two points of the sets *)
Theorem C92_portal : forall fuel iter l1 l2 M depth pos dir, (forall x, difference l1 l2 x -> norm x <= M) -> zMPRDepth fuel iter l1 l2 = Some (Some (depth, pos, dir)) ->
  (depth = 0 /\ dir = v3zero \/ 0 < depth /\ norm dir = 1) /\
  (portal_result l1 l2 M depth pos dir \/
   exists a b n, List.In a l1 /\ List.In b l2 /\ pos = vscale (1 / 2) (vadd a b) /\ (vscale depth dir = vsub a b \/ depth = 0 /\ negligible (vsub a b)) /\ norm n = 1 /\ forall x, difference l1 l2 x -> dot n x <= dot n (vsub a b)).
Proof. exact mpr_portal. Qed.
Print Assumptions C92_portal.
(** true only where zMPR says true; false only where zMPR says false or the rounds are used up *)
Theorem C92_answer : forall fuel iter l1 l2, match zMPRDepth fuel iter l1 l2 with
  | Some (Some _) => zMPR fuel l1 l2 = Some true
  | Some None => zMPR fuel l1 l2 = Some false \/ zMPR fuel l1 l2 = Some true /\ forall j, (j <= iter)%nat -> zMPRDepth fuel j l1 l2 = Some None
  | None => True end.
Proof. exact mpr_answer. Qed.
Print Assumptions C92_answer.
(** with more rounds allowed the result is the same *)
Theorem C92_more : forall fuel fuel' iter iter' l1 l2 r, (fuel <= fuel')%nat -> (iter <= iter')%nat -> zMPRDepth fuel iter l1 l2 = Some (Some r) -> zMPRDepth fuel' iter' l1 l2 = Some (Some r).
Proof. exact mpr_more. Qed.
Print Assumptions C92_more.
(** the depth need not be the least one: ten is returned where a displacement by one separates *)
Theorem C92_least_refuted : exists l1 l2 fuel iter depth pos dir, zMPRDepth fuel iter l1 l2 = Some (Some (depth, pos, dir)) /\ depth = 10 /\ exists t, norm t = 1 /\ separating 0 l1 l2 t.
Proof. exact mpr_least. Qed.
Print Assumptions C92_least_refuted.
(** a point in a tetrahedron, where a portal is refined, and a point in a slender octahedron *)
Example C92_ex_tetra : forall fuel iter, zMPRDepth (S fuel) (S iter) tA [v3zero] = Some (Some (1 / 3, V3 0 0 0, V3 (2 / 3) (-1 / 3) (2 / 3))).
Proof. exact t_run. Qed.
Example C92_ex_segment : forall fuel iter, zMPRDepth fuel iter mA [v3zero] = Some (Some (10, V3 5 0 0, V3 1 0 0)).
Proof. exact m_run. Qed.

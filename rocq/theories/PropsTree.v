(** Properties C44-C47: kd-tree and octree. *)
From Verif Require Import Base Spec SpecGeom SpecBox SpecData SpecOctree ModelVec ModelBox ModelData ModelTree ModelOctree FactsVec FactsData FactsData2 FactsTree FactsOctree FactsOctree2 FactsOctree3 FactsOctree4.
From Coq Require Import Lra Lia Permutation.
Open Scope R_scope.

(** * C44 nearest neighbour in a kd-tree *)
(** any points in any order of insertion, duplicates included: a stored point at the least distance, with its identifier *)
Theorem C44_nearest : forall ps q, ps <> [] -> exists n i p,
  zVec3DTreeNN (fold_left zVec3DTreeAddPoint ps zVec3DTreeInit) q = Some (Some n, Some (dist p q)) /\
  t_id n = Some i /\ t_point n = Some p /\ nth_error ps i = Some p /\ forall y, List.In y ps -> dist p q <= dist y q.
Proof. exact tree_nn. Qed.
Print Assumptions C44_nearest.
(** the partition found for a query contains the query *)
Theorem C44_partition : forall ps q, ps <> [] -> exists n i p, zVec3DTreePart (fold_left zVec3DTreeAddPoint ps zVec3DTreeInit) q = Some n /\ t_id n = Some i /\ t_point n = Some p /\ nth_error ps i = Some p /\
  forall v, (lox (t_region n) = Some v -> v <= vx q) /\ (loy (t_region n) = Some v -> v <= vy q) /\ (loz (t_region n) = Some v -> v <= vz q) /\
            (hix (t_region n) = Some v -> vx q <= v) /\ (hiy (t_region n) = Some v -> vy q <= v) /\ (hiz (t_region n) = Some v -> vz q <= v).
Proof. exact tree_part_bounds. Qed.
Print Assumptions C44_partition.
(** an empty tree: undefined behaviour or NULL *)
Theorem C44_empty : forall q r d, zVec3DTreeNN zVec3DTreeInit q = None /\ zVec3DTreeVicinity zVec3DTreeInit q r = None /\ zVec3DTreePart zVec3DTreeInit q = None /\
  zVec3DTreeToList zVec3DTreeInit = None /\ zVec3DTreeToArray zVec3DTreeInit = None /\ zVec3DTreeToData zVec3DTreeInit d = None.
Proof. exact empty_tree. Qed.
Print Assumptions C44_empty.
Example C44_ex : [V3 0 0 0; V3 1 0 0; V3 0 0 0] <> [] /\ fold_left zVec3DTreeAddPoint [V3 0 0 0] zVec3DTreeInit <> Nil.
Proof. split; discriminate. Qed.

(** * C45 vicinity, size and export of a kd-tree *)
Theorem C45_vicinity : forall ps q r, ps <> [] -> 0 <= r -> exists v d' l,
  zVec3DTreeVicinity (fold_left zVec3DTreeAddPoint ps zVec3DTreeInit) q r = Some v /\ zVecXDDataToAddrList v = Some (d', l) /\
  Permutation l (filter (fun p => Rltb (dist p q) r) ps).
Proof. exact tree_vicinity. Qed.
Print Assumptions C45_vicinity.
Theorem C45_export : forall ps, ps <> [] -> let t := fold_left zVec3DTreeAddPoint ps zVec3DTreeInit in
  t_size t = length ps /\ zVec3DTreeToArray t = Some ps /\ (exists l, zVec3DTreeToList t = Some l /\ Permutation l ps).
Proof. exact tree_export. Qed.
Print Assumptions C45_export.
(** adding a container adds its points one by one in order *)
Theorem C45_add_data : forall (d : data vec3) ps l, user_data d -> (exists d', zVecXDDataToAddrList d = Some (d', l)) ->
  exists d', zVec3DTreeAddData (fold_left zVec3DTreeAddPoint ps zVec3DTreeInit) d = Some (d', fold_left zVec3DTreeAddPoint (ps ++ l) zVec3DTreeInit).
Proof. exact add_data. Qed.
Print Assumptions C45_add_data.
(** exporting to a container appends a permutation of the points *)
Theorem C45_to_data : forall ps d0 h, ps <> [] -> d0 = zVecXDDataInitList \/ d0 = zVecXDDataInitAddrList -> exists d' d'' l,
  zVec3DTreeToData (fold_left zVec3DTreeAddPoint ps zVec3DTreeInit) (fst (run_ops d0 h)) = Some (d', true) /\ zVecXDDataToAddrList d' = Some (d'', added h ++ l) /\ Permutation l ps.
Proof. exact to_data. Qed.
Print Assumptions C45_to_data.

(** * C46 octree *)
(** [right_answers t ps] states what the vicinity and nearest neighbour searches return for the points [ps]:
    vicinity is the open ball; nearest is at the least distance; nothing is written when there is no point. *)
(** any history of insertions in the box and changes of resolution; every point lies in one of the boxes of the octree *)
Theorem C46_history : forall x1 y1 z1 x2 y2 z2 res h, 0 <= res -> sane h ->
  (forall p, List.In p (inserted h) -> betw x1 x2 (vx p) /\ betw y1 y2 (vy p) /\ betw z1 z2 (vz p)) ->
  exists n, forall fuel, (n <= fuel)%nat -> exists t, run_oops fuel (zVec3DOctreeInit x1 y1 z1 x2 y2 z2 res) h = Some t /\ right_answers t (inserted h) /\
  (forall p, List.In p (inserted h) -> exists b, List.In b (zVec3DOctantToAABox3DList (o_root t)) /\ in_box b p).
Proof. exact octree_history. Qed.
Print Assumptions C46_history.
(** points anywhere: refused when outside by the tolerance, answers are then right up to twice the tolerance; the octant found for a point contains it *)
Theorem C46_tolerance : forall x1 y1 z1 x2 y2 z2 res h, 0 <= res -> sane h -> let reg := box_of x1 y1 z1 x2 y2 z2 in
  let acc := filter (fun p => zAABox3DPointIsInside reg p zTOL) (inserted h) in
  exists n, forall fuel, (n <= fuel)%nat -> exists t, run_oops fuel (zVec3DOctreeInit x1 y1 z1 x2 y2 z2 res) h = Some t /\
  (forall q, acc <> [] -> exists v, zVec3DOctreeNN t q = (Some v, Some (dist v q)) /\ List.In v acc /\ forall y, List.In y acc -> dist v q <= dist y q + 2 * zTOL) /\
  (forall p, exists n', forall fuel', (n' <= fuel')%nat -> exists t', zVec3DOctreeAddPoint fuel' t p = Some (t', zAABox3DPointIsInside reg p zTOL) /\ (zAABox3DPointIsInside reg p zTOL = false -> t' = t)) /\
  (forall p, match zVec3DOctreeFindContainer t p with None => zAABox3DPointIsInside reg p zTOL = false | Some c => zAABox3DPointIsInside reg p zTOL = true /\ zAABox3DPointIsInside (o_region c) p zTOL = true end).
Proof. exact octree_tolerance. Qed.
Print Assumptions C46_tolerance.
(** a container of points in the box *)
Theorem C46_data : forall x1 y1 z1 x2 y2 z2 res d l, 0 <= res -> user_data d -> (exists d', zVecXDDataToAddrList d = Some (d', l)) ->
  (forall p, List.In p l -> betw x1 x2 (vx p) /\ betw y1 y2 (vy p) /\ betw z1 z2 (vz p)) ->
  exists n, forall fuel, (n <= fuel)%nat -> exists d' t, zVec3DOctreeAddData fuel (zVec3DOctreeInit x1 y1 z1 x2 y2 z2 res) d = Some (d', Some (t, true)) /\ right_answers t l.
Proof. exact octree_data. Qed.
Print Assumptions C46_data.
(** boxes are appended to the list; their number is returned only if the list was empty, 0 otherwise *)
Theorem C46_box_count : forall t list, sub_null (o_root t) = false -> zVec3DOctreeToAABox3DList t list = (list ++ zVec3DOctantToAABox3DList (o_root t), match list with [] => length (zVec3DOctantToAABox3DList (o_root t)) | _ => 0%nat end) /\ zVec3DOctantToAABox3DList (o_root t) <> [].
Proof. exact octree_box_count. Qed.
Print Assumptions C46_box_count.
(** automatic region: a cube around the given box, a power of two times the resolution *)
Theorem C46_auto : forall reg res, proper reg -> 0 < res -> exists h, let c := zAABox3DCenter reg in
  zVec3DOctreeInitAuto reg res = zVec3DOctreeInit (vx c - h) (vy c - h) (vz c - h) (vx c + h) (vy c + h) (vz c + h) res /\
  (exists k : nat, 2 * h = 2 ^ S k * res) /\
  (forall p, in_box reg p -> betw (vx c - h) (vx c + h) (vx p) /\ betw (vy c - h) (vy c + h) (vy p) /\ betw (vz c - h) (vz c + h) (vz p)).
Proof. exact octree_auto. Qed.
Print Assumptions C46_auto.
Example C46_ex : 0 <= 1 /\ sane [OInsert (V3 1 2 3); OResolution (1 / 4); OInsert (V3 1 2 3); OResolution 2] /\
  inserted [OInsert (V3 1 2 3); OResolution (1 / 4); OInsert (V3 1 2 3); OResolution 2] = [V3 1 2 3; V3 1 2 3] /\ betw 0 4 (vx (V3 1 2 3)).
Proof. repeat match goal with |- _ /\ _ => split end; try reflexivity; try Lra.lra; [intros r H; simpl in H; intuition (try discriminate); match goal with H : _ = _ |- _ => inversion H; Lra.lra end|left; simpl; Lra.lra]. Qed.

(** * C47 unification of octants *)
(** after any history unification keeps some of the points and the answers are right for these; when the octree is at most two levels deep all points are kept *)
Theorem C47_unify : forall x1 y1 z1 x2 y2 z2 res h, 0 <= res -> sane h ->
  (forall p, List.In p (inserted h) -> betw x1 x2 (vx p) /\ betw y1 y2 (vy p) /\ betw z1 z2 (vz p)) ->
  exists n, forall fuel, (n <= fuel)%nat -> exists t, run_oops fuel (zVec3DOctreeInit x1 y1 z1 x2 y2 z2 res) h = Some t /\
  (exists kept lost, Permutation (kept ++ lost) (inserted h) /\ right_answers (zVec3DOctreeUnifyOctant t) kept) /\
  (Rabs (x2 - x1) < 4 * o_res t -> Rabs (y2 - y1) < 4 * o_res t -> Rabs (z2 - z1) < 4 * o_res t -> right_answers (zVec3DOctreeUnifyOctant t) (inserted h)).
Proof. exact octree_unify. Qed.
Print Assumptions C47_unify.
(** eight points at the corners of an octree three levels deep are all lost *)
Theorem C47_loss_refuted : exists n, forall fuel, (n <= fuel)%nat -> exists t, run_oops fuel (zVec3DOctreeInit (-4) (-4) (-4) 4 4 4 1) (map OInsert (corner_pts (7 / 2))) = Some t /\ right_answers t (corner_pts (7 / 2)) /\ right_answers (zVec3DOctreeUnifyOctant t) [].
Proof. exact octree_loss. Qed.
Print Assumptions C47_loss_refuted.
(** a point added to a unified octant is not found by the vicinity search *)
Theorem C47_hidden_refuted : exists n, forall fuel, (n <= fuel)%nat -> exists t t', run_oops fuel (zVec3DOctreeInit (-2) (-2) (-2) 2 2 2 2) (map OInsert (corner_pts 1)) = Some t /\ right_answers (zVec3DOctreeUnifyOctant t) (corner_pts 1) /\
  zVec3DOctreeAddPoint fuel (zVec3DOctreeUnifyOctant t) (V3 0 0 0) = Some (t', true) /\ exists v d, zVec3DOctreeVicinity t' (V3 0 0 0) 1 = Some v /\ zVecXDDataToAddrList v = Some (d, []).
Proof. exact octree_hidden. Qed.
Print Assumptions C47_hidden_refuted.

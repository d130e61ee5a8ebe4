(** Properties C42, C43: point containers. *)
From Verif Require Import Base Spec SpecGeom SpecData ModelVec ModelData FactsVec FactsData FactsData2.
From Coq Require Import Lra Lia.
Open Scope R_scope.

(** * C42 containers *)
(** list and address list: any history of operations, additions and reads interleaved *)
Theorem C42_list : forall {A} (d0 : data A) h, d0 = zVecXDDataInitList \/ d0 = zVecXDDataInitAddrList ->
  snd (run_ops d0 h) = observe [] None h /\ exists d', zVecXDDataToAddrList (fst (run_ops d0 h)) = Some (d', added h).
Proof. exact (@list_container). Qed.
Print Assumptions C42_list.
(** array: any additions up to and beyond the capacity, then any reading *)
Theorem C42_array : forall {A} cap (vs : list A) h, reading h ->
  snd (run_ops (zVecXDDataInitArray cap) (map OAdd vs ++ h)) = map (fun k => BFlag (Nat.ltb k cap)) (seq 0 (length vs)) ++ observe (firstn cap vs) None h /\
  exists d', zVecXDDataToAddrList (fst (run_ops (zVecXDDataInitArray cap) (map OAdd vs ++ h))) = Some (d', firstn cap vs).
Proof. exact (@array_container). Qed.
Print Assumptions C42_array.
(** containers referring to existing points: any history; additions are refused *)
Theorem C42_reference : forall {A} (l : list A) (d0 : data A) h, d0 = zVecXDDataAssignArrayDirect l \/ d0 = zVecXDDataAssignArray l \/ d0 = zVecXDDataAssignList l \/ d0 = zVecXDDataAssignAddrList l ->
  snd (run_ops d0 h) = observe_fixed l (first l) h /\ exists d', zVecXDDataToAddrList (fst (run_ops d0 h)) = Some (d', l).
Proof. exact (@fixed_container). Qed.
Print Assumptions C42_reference.
(** whatever happened before, size, emptiness, reading, conversion, search and transformation agree on one sequence *)
Theorem C42_any : forall {A} (d : data A), user_data d -> exists l,
  zVecXDDataSize d = length l /\ zVecXDDataIsEmpty d = (match l with [] => true | _ => false end) /\
  (exists d', zVecXDDataToAddrList d = Some (d', l)) /\
  (forall h, reading h -> snd (run_ops (zVecXDDataRewind d) h) = observe l (first l) h) /\
  (forall eqb x, exists d', zVecXDDataFind eqb d x = Some (d', find (eqb x) l)) /\
  (forall f g, exists d' dst, zVecXDDataXform f g d = Some (d', dst) /\ exists d'', zVecXDDataToAddrList dst = Some (d'', map (fun v => g (f v)) l)).
Proof. exact (@container_ok). Qed.
Print Assumptions C42_any.
(** array: adding after rewinding and reading k points keeps these k points only *)
Theorem C42_array_overwrite : forall {A} cap (vs : list A) k w, (length vs <= cap)%nat -> (k <= length vs)%nat -> (k < cap)%nat ->
  exists d', zVecXDDataToAddrList (fst (run_ops (zVecXDDataInitArray cap) (map OAdd vs ++ ORewind :: repeat OFetch k ++ [OAdd w]))) = Some (d', firstn k vs ++ [w]).
Proof. exact (@array_overwrite). Qed.
Print Assumptions C42_array_overwrite.
(** in particular all points are lost by rewinding and adding, whatever the capacity *)
Theorem C42_array_refuted : forall {A} cap (vs : list A) w, (length vs <= cap)%nat -> (1 <= cap)%nat ->
  exists d', zVecXDDataToAddrList (fst (run_ops (zVecXDDataInitArray cap) (map OAdd vs ++ [ORewind; OAdd w]))) = Some (d', [w]).
Proof. exact (@array_loss). Qed.
Print Assumptions C42_array_refuted.
(** C++ toAddrList stores nothing in the list and instead makes the container refer to it *)
Theorem C42_cpp_address_list_refuted : forall {A} (d : data A) l, snd (cpp_toAddrList d l) = l /\ exists d', zVecXDDataToAddrList (fst (cpp_toAddrList d l)) = Some (d', l).
Proof. exact (@cpp_loss). Qed.
Print Assumptions C42_cpp_address_list_refuted.
(** hypotheses are met *)
Example C42_ex : reading [ORewind; @OFetch R; OFetch; OFetch; OSize] /\
  snd (run_ops (zVecXDDataInitArray 2) (map OAdd [1; 2; 3] ++ [ORewind; OFetch; OFetch; OFetch; OSize])) =
  [BFlag true; BFlag true; BFlag false; BUnit; BPoint (Some 1); BPoint (Some 2); BPoint None; BNum 2%nat].
Proof. split; [intros v; simpl; intuition discriminate|reflexivity]. Qed.
Example C42_ex_loss : exists d', zVecXDDataToAddrList (fst (run_ops (zVecXDDataInitArray 10) (map OAdd [1; 2; 3] ++ [ORewind; OAdd 4]))) = Some (d', [4]).
Proof. apply C42_array_refuted; simpl; lia. Qed.

(** * C43 searches *)
Theorem C43_nearest_3d : forall d l q, user_data d -> (exists d', zVecXDDataToAddrList d = Some (d', l)) -> l <> [] ->
  exists d' v, zVec3DDataNN d q = Some (d', (Some (dist v q), Some v)) /\ List.In v l /\ forall y, List.In y l -> dist v q <= dist y q.
Proof. exact nn3. Qed.
Print Assumptions C43_nearest_3d.
Theorem C43_nearest_2d : forall d l q, user_data d -> (exists d', zVecXDDataToAddrList d = Some (d', l)) -> l <> [] ->
  exists d' v, zVec2DDataNN d q = Some (d', (Some (dist2 v q), Some v)) /\ List.In v l /\ forall y, List.In y l -> dist2 v q <= dist2 y q.
Proof. exact nn2. Qed.
Print Assumptions C43_nearest_2d.
(** no point: the answer is marked as missing (distance HUGE_VAL, NULL) *)
Theorem C43_nearest_empty : forall d q, user_data d -> (exists d', zVecXDDataToAddrList d = Some (d', [])) -> zVec3DDataNN d q = Some (d, (None, None)).
Proof. exact nn_empty3. Qed.
Print Assumptions C43_nearest_empty.
Theorem C43_vicinity_3d : forall d l q r, user_data d -> (exists d', zVecXDDataToAddrList d = Some (d', l)) -> 0 <= r ->
  exists d' vic d'', zVec3DDataVicinity d q r = Some (d', vic) /\ zVecXDDataToAddrList vic = Some (d'', filter (fun v => Rltb (dist v q) r) l).
Proof. exact vic3. Qed.
Print Assumptions C43_vicinity_3d.
Theorem C43_vicinity_2d : forall d l q r, user_data d -> (exists d', zVecXDDataToAddrList d = Some (d', l)) -> 0 <= r ->
  exists d' vic d'', zVec2DDataVicinity d q r = Some (d', vic) /\ zVecXDDataToAddrList vic = Some (d'', filter (fun v => Rltb (dist2 v q) r) l).
Proof. exact vic2. Qed.
Print Assumptions C43_vicinity_2d.
Theorem C43_support_3d : forall d l dir, user_data d -> (exists d', zVecXDDataToAddrList d = Some (d', l)) -> l <> [] ->
  exists d' v, zVec3DDataSupportMap d dir = Some (d', Some v) /\ List.In v l /\ forall y, List.In y l -> dot y dir <= dot v dir.
Proof. exact supp3. Qed.
Print Assumptions C43_support_3d.
Theorem C43_support_2d : forall d l dir, user_data d -> (exists d', zVecXDDataToAddrList d = Some (d', l)) -> l <> [] ->
  exists d' v, zVec2DDataSupportMap d dir = Some (d', Some v) /\ List.In v l /\ forall y, List.In y l -> dot2 y dir <= dot2 v dir.
Proof. exact supp2. Qed.
Print Assumptions C43_support_2d.
(** hypotheses are met: two points in a list *)
Example C43_ex : user_data (fst (run_op (fst (run_op zVecXDDataInitList (OAdd (V3 0 0 0)))) (OAdd (V3 1 0 0)))) /\
  exists d', zVecXDDataToAddrList (fst (run_op (fst (run_op zVecXDDataInitList (OAdd (V3 0 0 0)))) (OAdd (V3 1 0 0)))) = Some (d', [V3 0 0 0; V3 1 0 0]).
Proof. split; [repeat constructor|]. eexists; reflexivity. Qed.

(** C93: lists of shapes. *)
From Verif Require Import Base Spec SpecShapeList ModelMulti ModelShapeList FactsShapeList.
From Coq Require Import List.
From Coq Require Lra Lia.
Import ListNotations.
Open Scope R_scope.

(** a pop returns the latest push that is not taken back, whatever happened in between and before, and leaves what was there before it *)
Theorem C93_lifo : forall (A : Type) (l : list A) (h k : list (op A)) (a : A), balanced k -> exists r r', listRun l (h ++ Push a :: k ++ [Pop]) = (fst (listRun l h), r ++ r' ++ [Some a]) /\ r = snd (listRun l h) /\ Forall (fun x => x <> None) r'.
Proof. exact list_lifo. Qed.
Print Assumptions C93_lifo.
(** a pop when everything was taken back returns NULL and changes nothing later *)
Theorem C93_empty : forall (A : Type) (h k : list (op A)), balanced h -> listRun [] (h ++ Pop :: k) = let '(l, r) := listRun [] k in (l, snd (listRun [] h) ++ None :: r).
Proof. exact list_empty. Qed.
Print Assumptions C93_empty.
(** the list has what is left over, latest first *)
Theorem C93_contents : forall (A : Type) (h : list (op A)) (m : list A), left_over h m -> fst (listRun [] h) = rev m.
Proof. exact list_contents. Qed.
Print Assumptions C93_contents.
(** every history without a pop of the empty list leaves something definite over *)
Theorem C93_left : forall (A : Type) (h : list (op A)), Forall (fun r => r <> None) (snd (listRun [] h)) -> exists m, left_over h m.
Proof. exact list_left. Qed.
Print Assumptions C93_left.
(** the distance is the least of the shapes left over, the point that of the latest one with this distance; undefined exactly without shapes or when undefined for one of them *)
Theorem C93_closest : forall ans h m p, left_over h m -> match zShape3DListClosest ans (fst (listRun [] h)) p with
  | Some (d, cp) => exists m1 s m2, m = m1 ++ s :: m2 /\ zShape3DClosest ans s p = Some (d, cp) /\
      (forall t, List.In t m2 -> exists d' cp', zShape3DClosest ans t p = Some (d', cp') /\ d < d') /\ forall t, List.In t m1 -> exists d' cp', zShape3DClosest ans t p = Some (d', cp') /\ d <= d'
  | None => m = [] \/ exists s, List.In s m /\ zShape3DClosest ans s p = None
  end.
Proof. exact list_closest. Qed.
Print Assumptions C93_closest.
(** the distance is that from an array of the same shapes *)
Theorem C93_array : forall ans h m p, left_over h m -> option_map fst (zShape3DListClosest ans (fst (listRun [] h)) p) = option_map fst (zMultiShape3DClosest ans m p).
Proof. exact list_array. Qed.
Print Assumptions C93_array.
(** for polyhedra: a nearest vertex of all *)
Theorem C93_contig : forall h phs ph p, left_over h (map ShPH (phs ++ [ph])) -> pverts ph <> [] -> exists v d, zShape3DListContigVert (fst (listRun [] h)) p = Some (v, d) /\
  List.In v (flat_map pverts (phs ++ [ph])) /\ d = dist p v /\ forall w, List.In w (flat_map pverts (phs ++ [ph])) -> d <= dist p w.
Proof. exact list_contig. Qed.
Print Assumptions C93_contig.
(** not for an empty list or other shapes *)
Theorem C93_contig_undefined : forall h m p, left_over h m -> m = [] \/ (exists s, List.In s m /\ forall ph, s <> ShPH ph) -> zShape3DListContigVert (fst (listRun [] h)) p = None.
Proof. exact list_contig_undefined. Qed.
Print Assumptions C93_contig_undefined.
(** two pushes, a pop and a push; then everything is taken back *)
Example C93_ex_left : left_over [Push 1%nat; Push 2%nat; Pop; Push 3%nat] [1%nat; 3%nat].
Proof.
  apply (left_push [Push 1%nat; Push 2%nat; Pop] 3%nat [1%nat]). apply (left_more [Push 1%nat] [Push 2%nat; Pop]); [apply (left_push [] 1%nat []); constructor; constructor|]. apply (bal_pair 2%nat []). constructor.
Qed.
Example C93_ex_run : listRun [] [Push 1%nat; Push 2%nat; Pop; Push 3%nat; Pop; Pop; Pop] = ([], [Some 2%nat; Some 3%nat; Some 1%nat; None]).
Proof. reflexivity. Qed.
Example C93_ex_balanced : balanced [Push 2%nat; Push 3%nat; Pop; Pop].
Proof. apply (bal_pair 2%nat [Push 3%nat; Pop]). apply (bal_pair 3%nat []). constructor. Qed.
(** two polyhedra with one vertex each *)
Example C93_ex_contig : exists v d, zShape3DListContigVert (fst (listRun [] [Push (ShPH (PH [V3 1 0 0] [])); Push (ShPH (PH [V3 2 0 0] []))])) (V3 0 0 0) = Some (v, d) /\ d <= 1.
Proof.
  destruct (list_contig [Push (ShPH (PH [V3 1 0 0] [])); Push (ShPH (PH [V3 2 0 0] []))] [PH [V3 1 0 0] []] (PH [V3 2 0 0] []) (V3 0 0 0)) as (v & d & E & _ & _ & M).
  - apply (left_push [Push (ShPH (PH [V3 1 0 0] []))] (ShPH (PH [V3 2 0 0] [])) [ShPH (PH [V3 1 0 0] [])]). apply (left_push [] (ShPH (PH [V3 1 0 0] [])) []). constructor. constructor.
  - discriminate.
  - exists v, d. split; [exact E|]. specialize (M (V3 1 0 0) (or_introl eq_refl)). replace (dist (V3 0 0 0) (V3 1 0 0)) with 1 in M; [exact M|]. unfold dist, norm, dot, vsub. cbn [vx vy vz]. replace ((0 - 1) * (0 - 1) + (0 - 0) * (0 - 0) + (0 - 0) * (0 - 0)) with 1 by ring. symmetry. apply R_sqrt.sqrt_1.
Qed.

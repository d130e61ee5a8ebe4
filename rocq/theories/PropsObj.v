(** C83: OBJ files. *)
From Coq Require Import Ascii String ZArith.
From Verif Require Import Base Spec SpecObj ModelElem ModelPH ModelObj FactsObj.
From Coq Require Import List.
From Coq Require Lra Lia.
Import ListNotations.
Open Scope R_scope.

(** a file whose faces have three corners and come after their vertices: exactly these vertices and triangles, with their normals; texture and normal numbers and other lines do not matter *)
Theorem C83_triangles : forall junk ls ps, obj_polygons ls ps -> declared 0 ls -> (forall l, List.In l ps -> length l = 3%nat) ->
  exists fs, zPH3DFReadOBJ junk ls = Some (PH (obj_vertices ls) fs) /\ faces_are (obj_vertices ls) (map face_key fs) (flat_map fan ps).
Proof. exact obj_triangles. Qed.
Print Assumptions C83_triangles.
(** any file whose faces name vertices of the file: one triangle for each face, of its first three corners, a missing corner being the first vertex; the normals are right if vertices come first *)
Theorem C83_general : forall junk ls ps, obj_polygons ls ps -> (forall l, List.In l ps -> let '(i, j, k) := first_three l in (i < length (obj_vertices ls))%nat /\ (j < length (obj_vertices ls))%nat /\ (k < length (obj_vertices ls))%nat) ->
  exists fs, zPH3DFReadOBJ junk ls = Some (PH (obj_vertices ls) fs) /\ map fst (map face_key fs) = map first_three ps /\
  (declared 0 ls -> faces_are (obj_vertices ls) (map face_key fs) (map first_three ps)).
Proof. exact obj_general. Qed.
Print Assumptions C83_general.
(** a face before its vertices gets its normal from memory not yet written: here zero *)
Theorem C83_order_refuted : exists ls ps fs, obj_polygons ls ps /\ ps = [[0; 1; 2]%nat] /\ obj_vertices ls = [V3 0 0 0; V3 1 0 0; V3 0 1 0] /\
  zPH3DFReadOBJ (V3 0 0 0) ls = Some (PH (obj_vertices ls) fs) /\ map face_key fs = [((0, 1, 2)%nat, V3 0 0 0)] /\ ~ normal_of (V3 0 0 0, V3 1 0 0, V3 0 1 0) (V3 0 0 0).
Proof. exact obj_order_refuted. Qed.
Print Assumptions C83_order_refuted.
(** the unit square as one face leaves a part of the square uncovered *)
Theorem C83_square_refuted : forall junk, exists ls ps ph p, obj_polygons ls ps /\ declared 0 ls /\ ps = [[0; 1; 2; 3]%nat] /\ obj_vertices ls = [V3 0 0 0; V3 1 0 0; V3 1 1 0; V3 0 1 0] /\
  zPH3DFReadOBJ junk ls = Some ph /\ in_triangle (V3 0 0 0) (V3 1 1 0) (V3 0 1 0) p /\
  forall f a b d, List.In f (ph_faces ph) -> triangle_of (pverts ph) f (a, b, d) -> ~ in_triangle a b d p.
Proof. exact obj_square_refuted. Qed.
Print Assumptions C83_square_refuted.
(** a number of no vertex - too large, zero, or counted backwards as negative numbers are in this format - is undefined behaviour *)
Theorem C83_beyond : forall junk ls ws k w n, List.In (LFace ws) ls -> (k < 3)%nat -> nth_error ws k = Some w -> obj_corner w n -> (n < 1 \/ Z.of_nat (length (obj_vertices ls)) < n)%Z ->
  zPH3DFReadOBJ junk ls = None.
Proof. exact obj_beyond. Qed.
Print Assumptions C83_beyond.
(** three ways to write a corner, among other lines *)
Example C83_ex : let ls := [LOther; LVert [0; 0; 0]; LVert [1; 0; 0]; LOther; LVert [0; 1; 0; 1]; LFace ["1"; "12/7"; "3//2"]%string] in
  obj_corner "12/7" 12 /\ obj_corner "-1" (-1) /\
  obj_polygons (firstn 5 ls ++ [LFace ["1"; "2/7"; "3//2"]%string]) [[0; 1; 2]%nat] /\ declared 0 (firstn 5 ls ++ [LFace ["1"; "2/7"; "3//2"]%string]) /\ obj_vertices ls = [V3 0 0 0; V3 1 0 0; V3 0 1 0].
Proof.
  assert (D : forall d, (d < 10)%nat -> are_digits [d]) by (intros d H; split; [discriminate|constructor; [exact H|constructor]]).
  assert (F : Forall2 (fun w i => obj_corner w (Z.of_nat i + 1)) ["1"; "2/7"; "3//2"]%string [0; 1; 2]%nat).
  { constructor; [exists "1"%string, ""%string; split; [reflexivity|]; split; [apply (NU_plain [1%nat]), D; Lia.lia|left; reflexivity]|].
    constructor; [exists "2"%string, "/7"%string; split; [reflexivity|]; split; [apply (NU_plain [2%nat]), D; Lia.lia|right; exists "7"%string; reflexivity]|].
    constructor; [exists "3"%string, "//2"%string; split; [reflexivity|]; split; [apply (NU_plain [3%nat]), D; Lia.lia|right; exists "/2"%string; reflexivity]|constructor]. }
  intros ls. split.
  { exists "12"%string, "/7"%string. split; [reflexivity|]. split; [|right; exists "7"%string; reflexivity]. apply (NU_plain [1; 2]%nat). split; [discriminate|repeat constructor]. }
  split. { exists "-1"%string, ""%string. split; [reflexivity|]. split; [|left; reflexivity]. apply (NU_minus [1%nat]), D. Lia.lia. }
  split; [cbn [firstn app ls]; do 5 constructor; constructor; [exact F|constructor]|]. split; [|reflexivity].
  cbn [firstn app ls]. do 5 constructor. econstructor; [exact F|Lia.lia| |constructor]. intros i J. cbn in J. Lia.lia.
Qed.

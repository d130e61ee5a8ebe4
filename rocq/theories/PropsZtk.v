(** C80: shape description files. *)
From Coq Require Import Ascii String.
From Verif Require Import Base Spec SpecZtk ModelElem ModelPH ModelPrism ModelMass ModelZtk FactsZtk FactsZtk2 FactsZtk3.
From Verif Require FactsAlg.
From Coq Require Import List.
From Coq Require Lra Lia.
Import ListNotations.
Open Scope R_scope.

(** [storable]: unit axes (boxes, ellipsoids), a positive number of divisions, valid vertex numbers and normals of the corners (polyhedra), a right-handed orthogonal pair of axes (elliptic cylinders); [found]: the attached object is the first of its name.  What zShape3DFPrintZTK writes, zShape3DFromZTK reads back as the same shape *)
Theorem C80_round_trip : forall sarr on tn w b io it, match sarr with Some l => unused (map hname l) w | None => True end -> found on io -> found tn it -> storable b ->
  exists d, zShape3DFPrintZTK (Some on) (Some tn) (SH (Some w) (Some b) io it) = Some d /\
    zShape3DFromZTK sarr (Some on) (Some tn) d = ROk (SH (Some w) (Some b) io it).
Proof. exact ztk_roundtrip. Qed.
Print Assumptions C80_round_trip.
(** [placed]: the keys pos, att, rot and frame, in the order of the file, make a frame.  A section with placing keys is the section without them, moved by that frame *)
Theorem C80_placement : forall sarr on tn (d : sect) f h b, (forall k, List.In k ["pos"; "att"; "frame"]%string -> (ZTKCountKey k d <= 1)%nat) ->
  filter isPlacing d <> [] -> placed (F3 v3zero mid) (filter isPlacing d) f ->
  zShape3DFromZTK sarr on tn (filter (fun e => negb (isPlacing e)) d) = ROk h -> hbody h = Some b ->
  zShape3DFromZTK sarr on tn d = match bodyXform b f with Some b' => ROk (SH (hname h) (Some b') (hoptic h) (htex h)) | None => RUndef end.
Proof. exact ztk_place. Qed.
Print Assumptions C80_placement.
(** "auto" after the two other axes completes them to a rotation *)
Theorem C80_auto_axis : forall a b, norm a = 1 -> norm b = 1 -> dot a b = 0 -> forall sarr on tn,
  let box m := ROk (SH None (Some (ShBox (BX (F3 (V3 0 0 0) m) (V3 0 0 0)))) None None) in
  zShape3DFromZTK sarr on tn [("type", [TWord "box"]); ("ax", zVec3DFPrint a); ("ay", zVec3DFPrint b); ("az", AUTO)]%string = box (of_b a b (cross a b)) /\
  zShape3DFromZTK sarr on tn [("type", [TWord "box"]); ("ay", zVec3DFPrint a); ("az", zVec3DFPrint b); ("ax", AUTO)]%string = box (of_b (cross a b) a b) /\
  zShape3DFromZTK sarr on tn [("type", [TWord "box"]); ("az", zVec3DFPrint a); ("ax", zVec3DFPrint b); ("ay", AUTO)]%string = box (of_b b (cross a b) a) /\
  rotation (of_b a b (cross a b)) /\ rotation (of_b (cross a b) a b) /\ rotation (of_b b (cross a b) a).
Proof. exact ztk_auto. Qed.
Print Assumptions C80_auto_axis.
(** "auto" before the two other axes takes the coordinate axes instead *)
Theorem C80_auto_first_refuted : forall a b, norm a = 1 -> norm b = 1 -> forall sarr on tn,
  zShape3DFromZTK sarr on tn [("type", [TWord "box"]); ("az", AUTO); ("ax", zVec3DFPrint a); ("ay", zVec3DFPrint b)]%string =
  ROk (SH None (Some (ShBox (BX (F3 (V3 0 0 0) (of_b a b (V3 0 0 1))) (V3 0 0 0)))) None None).
Proof. exact ztk_auto_first. Qed.
Print Assumptions C80_auto_first_refuted.
(** a mirrored shape has the name of the section, the mirrored body and the attachments of its original; a type written before the mirror key loses the name *)
Theorem C80_mirror : forall l on tn w r i ref b a ax, findName (map hname l) r = Some i -> nth_error l i = Some ref -> hbody ref = Some b -> unused (map hname l) w ->
  (a = "x" /\ ax = 0%nat \/ a = "y" /\ ax = 1%nat \/ a = "z" /\ ax = 2%nat)%string ->
  zShape3DFromZTK (Some l) on tn [("name", [TWord w]); ("mirror", [TWord r; TWord a])]%string =
    match bodyMirror b ax with Some b' => ROk (SH (Some w) (Some b') (hoptic ref) (htex ref)) | None => RUndef end /\
  (forall t, List.In t ["polyhedron"; "box"; "sphere"; "ellipsoid"; "cylinder"; "capsule"; "ellipticcylinder"; "cone"]%string ->
   zShape3DFromZTK (Some l) on tn [("name", [TWord w]); ("type", [TWord t]); ("mirror", [TWord r; TWord a])]%string =
    match bodyMirror b ax with Some b' => ROk (SH None (Some b') (hoptic ref) (htex ref)) | None => RUndef end).
Proof. exact ztk_mirror. Qed.
Print Assumptions C80_mirror.
(** a loop on a coordinate plane and a prism or pyramid key: the prism or pyramid of the points of the loop *)
Theorem C80_sweep : forall sarr on tn a h pts v kind create (pl : R * R -> vec3), (a = "x" /\ (forall p, pl p = V3 h (fst p) (snd p)) \/ a = "y" /\ (forall p, pl p = V3 (snd p) h (fst p)) \/ a = "z" /\ (forall p, pl p = V3 (fst p) (snd p) h))%string ->
  (kind = "prism" /\ create = zPH3DCreatePrism \/ kind = "pyramid" /\ create = zPH3DCreatePyramid)%string ->
  zShape3DFromZTK sarr on tn [("type", [TWord "polyhedron"]); ("loop", TWord a :: TNum h :: flat pts); (kind, zVec3DFPrint v)]%string =
  match create (map pl pts) v with
  | Some (Some ph) => ROk (SH None (Some (ShPH ph)) None None)
  | Some None => RFail (SH None (Some (ShPH (PH [] []))) None None)
  | None => RUndef
  end.
Proof. exact ztk_sweep. Qed.
Print Assumptions C80_sweep.
(** a polyhedron is read only if all faces refer to vertices of the section *)
Theorem C80_face_numbers : forall d ph, zPH3DFromZTK d = ROk ph -> ZTKCountKey "prism" d = 0%nat -> ZTKCountKey "pyramid" d = 0%nat ->
  length (pverts ph) = ZTKCountKey "vert" d /\ length (pfaces ph) = ZTKCountKey "face" d /\
  forall f, List.In f (pfaces ph) -> (fi0 f < length (pverts ph) /\ fi1 f < length (pverts ph) /\ fi2 f < length (pverts ph))%nat.
Proof. exact ztk_ph_valid. Qed.
Print Assumptions C80_face_numbers.
(** faces written before the vertices are accepted and get a null normal *)
Theorem C80_faces_first_refuted : forall (a b c : vec3) n, corner_normal a b c n -> n <> v3zero ->
  storable (ShPH (PH [a; b; c] [FC 0 1 2 n])) /\
  zPH3DFromZTK [("face", [TInt 0; TInt 1; TInt 2]); ("vert", TInt 0 :: zVec3DFPrint a); ("vert", TInt 1 :: zVec3DFPrint b); ("vert", TInt 2 :: zVec3DFPrint c)]%string = ROk (PH [a; b; c] [FC 0 1 2 v3zero]) /\
  zPH3DFromZTK [("vert", TInt 0 :: zVec3DFPrint a); ("vert", TInt 1 :: zVec3DFPrint b); ("vert", TInt 2 :: zVec3DFPrint c); ("face", [TInt 0; TInt 1; TInt 2])]%string = ROk (PH [a; b; c] [FC 0 1 2 n]).
Proof. exact ztk_faces_first. Qed.
Print Assumptions C80_faces_first_refuted.
(** a turned box and a tetrahedron meet the hypotheses of C80_round_trip *)
Example C80_ex_box : storable (ShBox (BX (F3 (V3 1 2 3) (M3 0 1 0 (-1) 0 0 0 0 1)) (V3 1 2 3))).
Proof.
  unfold storable, unit3, norm, dot; cbn. repeat split; match goal with |- sqrt ?x = 1 => replace x with 1 by ring end; apply sqrt_1.
Qed.
Example C80_ex_tri : storable (ShPH (PH [V3 0 0 0; V3 1 0 0; V3 0 1 0] [FC 0 1 2 (V3 0 0 1)])).
Proof. exact ztk_ex_tri. Qed.
(** a position and two rotations meet the hypotheses of C80_placement *)
Example C80_ex_place : exists f, placed (F3 v3zero mid) [("rot", [TNum 0; TNum 0; TNum 2; TNum 90]); ("pos", [TPar [1; 2; 3]]); ("rot", [TNum 3; TNum 0; TNum 0; TNum 180])]%string f /\
  fpos f = V3 1 2 3 /\ fatt f = mmul (rodm (V3 1 0 0) PI) (rodm (V3 0 0 1) (PI / 2)).
Proof. exact ztk_ex_place. Qed.
(** a sphere called "a" and a mirror image called "b" meet the hypotheses of C80_mirror *)
Example C80_ex_mirror : let l := [SH (Some "a"%string) (Some (ShSphere (SP (V3 1 2 3) 1 8))) None None] in
  findName (map hname l) "a" = Some 0%nat /\ unused (map hname l) "b" /\
  zShape3DFromZTK (Some l) None None [("name", [TWord "b"]); ("mirror", [TWord "a"; TWord "x"])]%string = ROk (SH (Some "b"%string) (Some (ShSphere (SP (V3 (-1) 2 3) 1 8))) None None).
Proof. split; [reflexivity|]. split; [intros n [<-|[]]; discriminate|]. cbn. unfold zSphere3DMirror; cbn. repeat f_equal; ring. Qed.

(** C81: textures, files of several shapes, and their copies. *)
From Coq Require Import Ascii String.
From Verif Require Import Base Spec SpecZtk ModelElem ModelPH ModelMass ModelZtk FactsZtk FactsZtk4.
From Coq Require Import List.
From Coq Require Lra Lia.
Import ListNotations.
Open Scope R_scope.

(** [optic_ok], [texture_ok], [shape_ok]: named, storable, attachments found by their names; the names of the shapes differ.  What zMultiShape3DFPrintZTK writes, zMultiShape3DFromZTK reads back: all optical properties, textures and shapes with their attachments *)
Theorem C81_file_round_trip : forall scan m, mshp m <> [] -> Forall optic_ok (moptic m) -> Forall texture_ok (mtex m) -> Forall (shape_ok m) (mshp m) -> NoDup (map hname (mshp m)) ->
  exists doc, zMultiShape3DFPrintZTK m = Some doc /\ zMultiShape3DFromZTK scan doc = ROk m.
Proof. exact ztk_multi_rt. Qed.
Print Assumptions C81_file_round_trip.
(** the same for one texture *)
Theorem C81_texture_round_trip : forall t, texture_ok t -> exists d, zTextureFPrintZTK t = Some d /\ zTextureFromZTK d = ROk t.
Proof. exact ztk_texture. Qed.
Print Assumptions C81_texture_round_trip.
(** a bump map of depth 0 is written, and refused when read *)
Theorem C81_bump_refuted : forall t f, xfile t = Some f -> xbump t = true -> xdepth t = 0 -> xcoord t <> [] -> exists d t', zTextureFPrintZTK t = Some d /\ zTextureFromZTK d = RFail t'.
Proof. exact ztk_bump0. Qed.
Print Assumptions C81_bump_refuted.
(** two shapes of one name: the reader reports success; the second shape and all that follow have no body *)
Theorem C81_failure_refuted : forall scan w b es, w <> NONAME -> storable b ->
  exists d, zShape3DFPrintZTK (Some []) (Some []) (SH (Some w) (Some b) None None) = Some d /\
    zMultiShape3DFromZTK scan (SecShape d :: SecShape d :: map SecShape es) = ROk (MS [] [] (SH (Some w) (Some b) None None :: repeat (SH None None None None) (Datatypes.S (length es)))).
Proof. exact ztk_multi_lost. Qed.
Print Assumptions C81_failure_refuted.
(** a copy of optical properties and shapes without textures: the same shapes, attached to the optical properties of the copy *)
Theorem C81_copy : forall m, mtex m = [] -> (forall o, List.In o (moptic m) -> exists w, oname o = Some w) ->
  (forall h, List.In h (mshp m) -> exists w b i, h = SH (Some w) (Some b) (Some i) None /\ storable b /\ sized b) ->
  exists c, zMultiShape3DClone m = Some (Some c) /\ coptics c = moptic m /\ ctexs c = [] /\
    map (fun x => (csname x, csbody x, csoptic x, cstex x)) (cshapes c) = map (fun h => (hname h, hbody h, (InCopy, match hoptic h with Some i => i | None => 0%nat end), None)) (mshp m).
Proof. exact ztk_clone. Qed.
Print Assumptions C81_copy.
(** a shape without an optical property is never copied properly; a texture without faces makes the copy fail; the shapes of the copy refer to the textures of the original *)
Theorem C81_copy_refuted : forall m, (forall h, List.In h (mshp m) -> hoptic h = None -> forall c, zMultiShape3DClone m <> Some (Some c)) /\
  (forall t, List.In t (mtex m) -> xface t = [] -> zMultiShape3DClone m = Some None) /\
  (forall c, zMultiShape3DClone m = Some (Some c) -> forall k h x, nth_error (mshp m) k = Some h -> nth_error (cshapes c) k = Some x -> cstex x = option_map (fun i => (InOriginal, i)) (htex h)).
Proof. exact ztk_clone_bad. Qed.
Print Assumptions C81_copy_refuted.
(** the copy of a texture has the right number of coordinates and faces, all zero *)
Theorem C81_texture_copy_refuted : forall t, (xface t = [] -> zTextureClone t = None) /\
  forall t', zTextureClone t = Some t' -> xname t' = xname t /\ xfile t' = xfile t /\ xbump t' = xbump t /\ xdepth t' = 1 /\
    length (xcoord t') = length (xcoord t) /\ length (xface t') = length (xface t) /\
    (forall c, List.In c (xcoord t') -> c = V2 0 0) /\ (forall f, List.In f (xface t') -> f = (0, 0, 0)%nat).
Proof. exact ztk_texture_clone. Qed.
Print Assumptions C81_texture_copy_refuted.
(** an optical property, a texture, and two shapes of which one uses both meet the hypotheses of C81_file_round_trip *)
Example C81_ex : let o := Optic (Some (list_ascii_of_string "red")) (RGB 1 0 0) (RGB 1 0 0) (RGB 0 0 0) 0 0 1 in
  let t := TX (Some "wood"%string) (Some "wood.png"%string) false [V2 0 0; V2 1 0; V2 0 1] [(0, 1, 2)%nat] 1 in
  let m := MS [o] [t] [SH (Some "ball"%string) (Some (ShSphere (SP (V3 1 2 3) 1 8))) (Some 0%nat) None; SH (Some "pole"%string) (Some (ShCyl (CY (V3 0 0 0) (V3 0 0 1) 1 8))) (Some 0%nat) (Some 0%nat)] in
  mshp m <> [] /\ Forall optic_ok (moptic m) /\ Forall texture_ok (mtex m) /\ Forall (shape_ok m) (mshp m) /\ NoDup (map hname (mshp m)).
Proof.
  intros o t m. split; [discriminate|]. split; [|split; [|split]].
  - repeat constructor; cbn; try (left; reflexivity). eexists. reflexivity.
  - constructor; [|constructor]. unfold texture_ok; cbn. split; [eexists; reflexivity|]. split; [eexists; reflexivity|]. split; [discriminate|]. split; [|reflexivity]. repeat constructor.
  - constructor; [|constructor; [|constructor]]; unfold shape_ok; cbn [hname hbody hoptic htex moptic mtex m map attached text oname o xname t option_map].
    + split; [eexists; split; [reflexivity|discriminate]|]. split; [eexists; split; [reflexivity|reflexivity]|]. split; [|exact Logic.I]. eexists. split; [reflexivity|]. intros j n L. inversion L.
    + split; [eexists; split; [reflexivity|discriminate]|]. split; [eexists; split; [reflexivity|reflexivity]|]. split; (eexists; split; [reflexivity|]; intros j n L; inversion L).
  - cbn. constructor; [intros [E|[]]; discriminate|]. constructor; [intros []|constructor].
Qed.
(** a box attached to an optical property meets the hypotheses of C81_copy *)
Example C81_ex_copy : let b := ShBox (BX (F3 (V3 0 0 0) mid) (V3 1 2 3)) in storable b /\ sized b.
Proof.
  cbn. unfold unit3, norm, dot, mid; cbn. repeat split; try Lra.lra; match goal with |- sqrt ?x = 1 => replace x with 1 by ring end; apply sqrt_1.
Qed.

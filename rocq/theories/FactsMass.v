(** Proofs about the mass properties of generic shapes. *)
From Verif Require Import Base Spec SpecMesh ModelMass FactsVec FactsAlg FactsMat FactsElem FactsTri FactsFrame FactsBox FactsObb FactsRound FactsSolid FactsPH FactsPH2 FactsPH3.
Open Scope R_scope.

(** inertia about the origin = barycentric inertia + point mass at the barycentre;
    for every shape, whatever its parameters *)
Lemma shape_parallel s mass : 
  match zShape3DBarycenter s, zShape3DBaryInertiaMass s mass with
  | Some c, Some ib => zShape3DInertiaMass s mass = Some (madd ib (mscale mass (point_inertia c)))
  | _, _ => zShape3DInertiaMass s mass = None
  end.
Proof.
  unfold zShape3DInertiaMass. destruct (zShape3DBarycenter s); [|reflexivity]. destruct (zShape3DBaryInertiaMass s mass); [|reflexivity].
  rewrite cat_dop. do 3 f_equal. ring.
Qed.
(** the two ways to give the mass agree *)
Lemma shape_density s density v : zShape3DVolume s = Some v -> v <> 0 -> (forall p, s = ShPH p -> valid_ph p) ->
  zShape3DBaryInertia s density = zShape3DBaryInertiaMass s (density * v) /\ zShape3DInertia s density = zShape3DInertiaMass s (density * v).
Proof.
  intros HV NZ HP. split; [|unfold zShape3DInertia; rewrite HV; reflexivity].
  destruct s as [b|s|e|c|c|c|c|p]; cbn [zShape3DBaryInertia zShape3DBaryInertiaMass zShape3DVolume] in *; try (injection HV as <-; reflexivity).
  - injection HV as <-. unfold zCapsule3DBaryInertiaMass. destruct (Reqb_reflect (zCapsule3DVolume c) 0) as [E|E]; [contradiction|]. f_equal. field. exact E.
  - specialize (HP p eq_refl). unfold zPH3DBaryInertia, zPH3DBaryInertiaMass, zPH3DInertiaMass. rewrite HV. destruct (Reqb_reflect v 0) as [E|E]; [contradiction|].
    replace (density * v / v) with density by (field; exact NZ). reflexivity.
Qed.
Lemma mid_sym_diag r a b c : symmetric (zRotMat3D r (diag3 a b c)).
Proof.
  unfold symmetric. assert (E : zRotMat3D r (diag3 a b c) = mmul r (mmul (M3 a 0 0 0 b 0 0 0 c) (mtr r))).
  { transitivity (mmul (zMulMat3DMat3D r (diag3 a b c)) (mtr r)); [apply zmmt_spec|]. transitivity (mmul (mmul r (diag3 a b c)) (mtr r)); [f_equal; apply zmm_spec|]. symmetry. apply mmul_assoc. }
  rewrite E. destruct r. mring.
Qed.
Lemma shape_symmetric s mass ib : (forall p, s = ShPH p -> valid_ph p /\ closed (ph_faces p) /\ zPH3DVolume p <> Some 0) -> zShape3DBaryInertiaMass s mass = Some ib -> symmetric ib.
Proof.
  intros HP. destruct s as [b|s|e|c|c|c|c|p]; cbn [zShape3DBaryInertiaMass].
  - intros E. injection E as <-. apply mid_sym_diag.
  - intros E. injection E as <-. unfold zSphere3DBaryInertiaMass. unfold symmetric, diag3, zMat3DCreate, of_b. mring.
  - intros E. injection E as <-. apply mid_sym_diag.
  - unfold zCyl3DBaryInertiaMass. destruct (axis_att (zCyl3DAxis c)); [|discriminate]. intros E. injection E as <-. apply mid_sym_diag.
  - intros E. injection E as <-. apply mid_sym_diag.
  - unfold zCapsule3DBaryInertiaMass, zCapsule3DBaryInertia. destruct (Reqb _ 0); [discriminate|]. destruct (axis_att (zCyl3DAxis c)); [|discriminate]. intros E. injection E as <-. apply mid_sym_diag.
  - unfold zCone3DBaryInertiaMass. destruct (axis_att (zCone3DAxis c)); [|discriminate]. intros E. injection E as <-. apply mid_sym_diag.
  - intros E. destruct (HP p eq_refl) as (V & C & N).
    destruct (mass_parallel p 0 V C N) as (v & c0 & _ & _ & _ & HV & _). assert (NZ : v <> 0) by (intros Z; rewrite Z in HV; contradiction).
    destruct (mass_parallel p (mass / v) V C N) as (v' & c & i & ib' & ph' & A1 & A2 & A3 & A4 & A5 & A6 & A7 & A8 & A9 & A10 & A11 & A12).
    rewrite HV in A1. injection A1 as <-. replace (mass / v * v) with mass in A12 by (field; exact NZ). rewrite A12 in E. injection E as <-. exact A7.
Qed.

(** Signed volume of swept meshes. *)
From Verif Require Import Base Spec SpecGeom SpecMesh SpecSweep ModelElem ModelMesh FactsVec FactsAlg FactsElem FactsPH FactsPH2.
From Coq Require Import Lia Lra.
Open Scope R_scope.

(** after the final correction the enclosed signed volume is not negative *)
Lemma face_vol_spec vs f : face_vol vs f = cone_vol v3zero (corners vs f).
Proof. destruct f as [[a b] c]. unfold face_vol, zTri3DConeVolume, cone_vol, corners, vpos; cbn [tv0 tv1 tv2]. unfold vol6, det3v. zvg. reflexivity. Qed.
Lemma fix_volume_pos vs fs : 0 <= mesh_vol v3zero vs (fix_volume vs fs).
Proof.
  unfold fix_volume. rewrite fold_rsum, Rplus_0_l. assert (E : rsum (face_vol vs) fs = mesh_vol v3zero vs fs) by (apply rsum_ext; intros; apply face_vol_spec).
  rewrite E. destruct (Rltb_reflect (mesh_vol v3zero vs fs) 0) as [H|H]; [|lra].
  unfold mesh_vol in *. rewrite rsum_map. assert (K : rsum (fun f => cone_vol v3zero (corners vs (flip_face f))) fs = - rsum (fun f => cone_vol v3zero (corners vs f)) fs); [|lra].
  clear. induction fs as [|[[a b] c] fs IH]; [rewrite !rsum_nil; ring|]. rewrite !rsum_cons, IH. generalize (rsum (fun f => cone_vol v3zero (corners vs f)) fs). intros X. unfold corners, cone_vol, flip_face. set (p := vpos vs a). set (q := vpos vs b). set (w := vpos vs c). clearbody p q w. unfold vol6, det3v. clear. spec_unfold. field.
Qed.
Lemma swept_volume loop d o a m : zPH3DCreateTorus loop d o a = Some m \/ zPH3DCreateLathe loop d o a = Some m -> 0 <= mesh_vol v3zero (m_verts m) (m_faces m).
Proof. unfold zPH3DCreateTorus, zPH3DCreateLathe. destruct (sweep_verts loop d o a) as [vs|]; intros [H|H]; inversion H; cbn [m_verts m_faces]; apply fix_volume_pos. Qed.

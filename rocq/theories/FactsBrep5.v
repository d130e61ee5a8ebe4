(** The faces one after another. *)
From Verif Require Import Base Spec SpecBrep ModelBrep FactsAlg FactsVec FactsBrep FactsBrep2 FactsBrep3 FactsBrep4.
From Coq Require Import List Lia Lra Psatz.
Import ListNotations.
Open Scope R_scope.

Lemma cutOf_ex b1 b e u v : cutstate b1 -> mid b1 b -> fit b1 e u v -> hgt b1 u < 0 -> 0 < hgt b1 v -> exists x, match br_e b e with Some c => ec_cut c | None => None end = Some x.
Proof.
  intros CS M F HU HV. destruct (fit_cut _ _ _ _ CS F HU HV) as (c & x & Hc & Hx & _). rewrite (cutOf_mid _ _ _ _ _ _ CS M F Hc). eauto.
Qed.
Definition fits (b : brep) (f : bface) : Prop :=
  forall i, (i < 3)%nat -> List.In (get3 (bf_v f) i) (vlist b) /\ fit b (get3 (bf_e f) i) (get3 (bf_v f) (nxt i)) (get3 (bf_v f) (nxt (nxt i))).
Lemma cutres_rot2 b1 b f b' g l : cutres b1 b (rotf (rotf f)) b' (rotf (rotf g) :: l) -> cutres b1 b f b' (g :: l).
Proof. intros H. apply cutres_rot, cutres_rot, H. Qed.

Section OneFace.
Variables (b1 b : brep) (CS1 : cutstate b1) (M : mid b1 b).
Variables (x y z p q r : nat) (n : vec3).
Hypotheses (Ix : List.In x (vlist b1)) (Iy : List.In y (vlist b1)) (Iz : List.In z (vlist b1)).
Hypotheses (Fp : fit b1 p y z) (Fq : fit b1 q z x) (Fr : fit b1 r x y).
Let f := BF (x, y, z) (p, q, r) n.
Definition done_as (o : option (brep * option bface * option bface)) : Prop :=
  exists b' old new, o = Some (b', old, new) /\ cutres b1 b f b' (ocons old (ocons new [])).

Tactic Notation "getcut" ident(c) ident(E) constr(F) := destruct (cutOf_ex b1 b _ _ _ CS1 M F) as [c E]; [assumption|assumption|].
Lemma doneA0 : 0 < hgt b1 x -> hgt b1 y < 0 -> hgt b1 z < 0 -> done_as (truncFaceA b f 0 1 2).
Proof.
  intros H1 H2 H3. getcut c2 E2 Fq. getcut c3 E3 (fit_sym _ _ _ _ Fr).
  unfold done_as, truncFaceA, cutOf, bind. cbn [get3 bf_e bf_v f]. rewrite E2, E3. do 3 eexists. split; [reflexivity|].
  exact (resA b1 b CS1 M x y z p q r n Iy Iz Fp Fq Fr c2 c3 H1 H2 H3 E2 E3).
Qed.
Lemma doneA1 : 0 < hgt b1 y -> hgt b1 z < 0 -> hgt b1 x < 0 -> done_as (truncFaceA b f 1 2 0).
Proof.
  intros H1 H2 H3. getcut c2 E2 Fr. getcut c3 E3 (fit_sym _ _ _ _ Fp).
  unfold done_as, truncFaceA, cutOf, bind. cbn [get3 bf_e bf_v f]. rewrite E2, E3. do 3 eexists. split; [reflexivity|]. apply cutres_rot.
  exact (resA b1 b CS1 M y z x q r p n Iz Ix Fq Fr Fp c2 c3 H1 H2 H3 E2 E3).
Qed.
Lemma doneA2 : 0 < hgt b1 z -> hgt b1 x < 0 -> hgt b1 y < 0 -> done_as (truncFaceA b f 2 0 1).
Proof.
  intros H1 H2 H3. getcut c2 E2 Fp. getcut c3 E3 (fit_sym _ _ _ _ Fq).
  unfold done_as, truncFaceA, cutOf, bind. cbn [get3 bf_e bf_v f]. rewrite E2, E3. do 3 eexists. split; [reflexivity|]. apply cutres_rot2.
  exact (resA b1 b CS1 M z x y r p q n Ix Iy Fr Fp Fq c2 c3 H1 H2 H3 E2 E3).
Qed.
Lemma doneV0 : hgt b1 x < 0 -> 0 < hgt b1 y -> 0 < hgt b1 z -> done_as (truncFaceV b f 0 1 2).
Proof.
  intros H1 H2 H3. getcut c2 E2 (fit_sym _ _ _ _ Fq). getcut c3 E3 Fr.
  unfold done_as, truncFaceV, cutOf, bind. cbn [get3 bf_e bf_v f]. rewrite E2, E3. do 3 eexists. split; [reflexivity|].
  exact (resV b1 b CS1 M x y z p q r n Ix Fp Fq Fr c2 c3 H1 H2 H3 E2 E3).
Qed.
Lemma doneV1 : hgt b1 y < 0 -> 0 < hgt b1 z -> 0 < hgt b1 x -> done_as (truncFaceV b f 1 2 0).
Proof.
  intros H1 H2 H3. getcut c2 E2 (fit_sym _ _ _ _ Fr). getcut c3 E3 Fp.
  unfold done_as, truncFaceV, cutOf, bind. cbn [get3 bf_e bf_v f]. rewrite E2, E3. do 3 eexists. split; [reflexivity|]. apply cutres_rot.
  exact (resV b1 b CS1 M y z x q r p n Iy Fq Fr Fp c2 c3 H1 H2 H3 E2 E3).
Qed.
Lemma doneV2 : hgt b1 z < 0 -> 0 < hgt b1 x -> 0 < hgt b1 y -> done_as (truncFaceV b f 2 0 1).
Proof.
  intros H1 H2 H3. getcut c2 E2 (fit_sym _ _ _ _ Fp). getcut c3 E3 Fq.
  unfold done_as, truncFaceV, cutOf, bind. cbn [get3 bf_e bf_v f]. rewrite E2, E3. do 3 eexists. split; [reflexivity|]. apply cutres_rot2.
  exact (resV b1 b CS1 M z x y r p q n Iz Fr Fp Fq c2 c3 H1 H2 H3 E2 E3).
Qed.
Lemma doneE0 : hgt b1 x = 0 -> hgt b1 y < 0 -> 0 < hgt b1 z -> done_as (truncFaceE b f 0 1 2).
Proof.
  intros H1 H2 H3. getcut c1 E1 Fp.
  unfold done_as, truncFaceE, cutOf, bind. cbn [get3 bf_e bf_v f]. rewrite E1. do 3 eexists. split; [reflexivity|].
  exact (resE1 b1 b CS1 M x y z p q r n Ix Iy Fp Fq Fr c1 H1 H2 H3 E1).
Qed.
Lemma doneE1 : hgt b1 y = 0 -> hgt b1 z < 0 -> 0 < hgt b1 x -> done_as (truncFaceE b f 1 2 0).
Proof.
  intros H1 H2 H3. getcut c1 E1 Fq.
  unfold done_as, truncFaceE, cutOf, bind. cbn [get3 bf_e bf_v f]. rewrite E1. do 3 eexists. split; [reflexivity|]. apply cutres_rot.
  exact (resE1 b1 b CS1 M y z x q r p n Iy Iz Fq Fr Fp c1 H1 H2 H3 E1).
Qed.
Lemma doneE2 : hgt b1 z = 0 -> hgt b1 x < 0 -> 0 < hgt b1 y -> done_as (truncFaceE b f 2 0 1).
Proof.
  intros H1 H2 H3. getcut c1 E1 Fr.
  unfold done_as, truncFaceE, cutOf, bind. cbn [get3 bf_e bf_v f]. rewrite E1. do 3 eexists. split; [reflexivity|]. apply cutres_rot2.
  exact (resE1 b1 b CS1 M z x y r p q n Iz Ix Fr Fp Fq c1 H1 H2 H3 E1).
Qed.
Lemma doneE0' : hgt b1 x = 0 -> hgt b1 z < 0 -> 0 < hgt b1 y -> done_as (truncFaceE b f 0 2 1).
Proof.
  intros H1 H2 H3. getcut c1 E1 (fit_sym _ _ _ _ Fp).
  unfold done_as, truncFaceE, cutOf, bind. cbn [get3 bf_e bf_v f]. rewrite E1. do 3 eexists. split; [reflexivity|].
  exact (resE2 b1 b CS1 M x y z p q r n Ix Iz Fp Fq Fr c1 H1 H2 H3 E1).
Qed.
Lemma doneE1' : hgt b1 y = 0 -> hgt b1 x < 0 -> 0 < hgt b1 z -> done_as (truncFaceE b f 1 0 2).
Proof.
  intros H1 H2 H3. getcut c1 E1 (fit_sym _ _ _ _ Fq).
  unfold done_as, truncFaceE, cutOf, bind. cbn [get3 bf_e bf_v f]. rewrite E1. do 3 eexists. split; [reflexivity|]. apply cutres_rot.
  exact (resE2 b1 b CS1 M y z x q r p n Iy Ix Fq Fr Fp c1 H1 H2 H3 E1).
Qed.
Lemma doneE2' : hgt b1 z = 0 -> hgt b1 y < 0 -> 0 < hgt b1 x -> done_as (truncFaceE b f 2 1 0).
Proof.
  intros H1 H2 H3. getcut c1 E1 (fit_sym _ _ _ _ Fr).
  unfold done_as, truncFaceE, cutOf, bind. cbn [get3 bf_e bf_v f]. rewrite E1. do 3 eexists. split; [reflexivity|]. apply cutres_rot2.
  exact (resE2 b1 b CS1 M z x y r p q n Iz Iy Fr Fp Fq c1 H1 H2 H3 E1).
Qed.
Lemma doneK : hgt b1 x <= 0 -> hgt b1 y <= 0 -> hgt b1 z <= 0 -> done_as (Some (b, Some f, None)).
Proof. intros. exists b, (Some f), None. split; [reflexivity|]. apply resK; assumption. Qed.
Lemma doneD : 0 <= hgt b1 x -> 0 <= hgt b1 y -> 0 <= hgt b1 z -> 0 < hgt b1 x \/ 0 < hgt b1 y \/ 0 < hgt b1 z -> done_as (Some (b, None, None)).
Proof. intros. exists b, None, None. split; [reflexivity|]. apply resD; assumption. Qed.
End OneFace.

Lemma pat_cases d : (d < 0 /\ truncPat d = 3%nat) \/ (d = 0 /\ truncPat d = 0%nat) \/ (0 < d /\ truncPat d = 1%nat).
Proof. unfold truncPat. destruct (Rltb_reflect d 0); [auto|]. destruct (Rltb_reflect 0 d); [auto|]. right. left. split; [lra|reflexivity]. Qed.
Lemma truncFace_ok b1 b f : cutstate b1 -> mid b1 b -> fits b1 f -> done_as b1 b (let '(x, y, z) := bf_v f in x) (let '(x, y, z) := bf_v f in y) (let '(x, y, z) := bf_v f in z)
   (let '(x, y, z) := bf_e f in x) (let '(x, y, z) := bf_e f in y) (let '(x, y, z) := bf_e f in z) (bf_norm f) (truncFace b f).
Proof.
  intros CS M F. destruct f as [[[x y] z] [[p q] r] n]. cbn [bf_v bf_e bf_norm].
  destruct (F 0%nat ltac:(lia)) as (Ix & Fp). destruct (F 1%nat ltac:(lia)) as (Iy & Fq). destruct (F 2%nat ltac:(lia)) as (Iz & Fr).
  cbn [bf_v bf_e get3 nxt] in Ix, Fp, Iy, Fq, Iz, Fr.
  unfold truncFace. cbn [bf_v bf_e get3].
  rewrite (md_v _ _ M). destruct (cs_v _ CS x Ix) as (_ & cx & Hx). destruct (cs_v _ CS y Iy) as (_ & cy & Hy). destruct (cs_v _ CS z Iz) as (_ & cz & Hz).
  rewrite Hx, Hy, Hz. assert (Ex : vc_d cx = hgt b1 x) by (unfold hgt; rewrite Hx; reflexivity). assert (Ey : vc_d cy = hgt b1 y) by (unfold hgt; rewrite Hy; reflexivity).
  assert (Ez : vc_d cz = hgt b1 z) by (unfold hgt; rewrite Hz; reflexivity). rewrite Ex, Ey, Ez. clear Ex Ey Ez Hx Hy Hz cx cy cz F.
  destruct (pat_cases (hgt b1 x)) as [[X ->]|[[X ->]|[X ->]]]; destruct (pat_cases (hgt b1 y)) as [[Y ->]|[[Y ->]|[Y ->]]];
  destruct (pat_cases (hgt b1 z)) as [[Z ->]|[[Z ->]|[Z ->]]]; cbn [Nat.add Nat.mul];
  first [apply doneK; auto; lra | apply doneD; auto; lra | apply doneA0; auto | apply doneA1; auto | apply doneA2; auto | apply doneV0; auto | apply doneV1; auto | apply doneV2; auto
    | apply doneE0; auto | apply doneE1; auto | apply doneE2; auto | apply doneE0'; auto | apply doneE1'; auto | apply doneE2'; auto].
Qed.
Lemma truncFace_res b1 b f : cutstate b1 -> mid b1 b -> fits b1 f -> exists b' old new, truncFace b f = Some (b', old, new) /\ cutres b1 b f b' (ocons old (ocons new [])).
Proof.
  intros CS M F. pose proof (truncFace_ok b1 b f CS M F) as D. destruct f as [[[x y] z] [[p q] r] n]. exact D.
Qed.

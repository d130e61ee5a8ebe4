(** The nets of the quadric surfaces; circular arcs. *)
From Verif Require Import Base Spec SpecMesh SpecNurbs ModelNurbs FactsAlg FactsElem FactsNurbs FactsNurbs2.
From Coq Require Import List Lra Lia.
Import ListNotations.
Open Scope R_scope.

(** the corners of the square about the unit circle *)
Definition sqx (i : nat) : R := nth i [1; 1; 0; -1; -1; -1; 0; 1; 1] 0.
Definition sqy (i : nat) : R := nth i [0; 1; 1; 1; 0; -1; -1; -1; 0] 0.

Ltac netc := lazy delta [zNURBS3DCP zNURBS3DWeight zNURBS3DSetCP zNURBS3DSetWeight set_net set_knots ellipsInitCP for_loop zNURBS3DEllips zNURBS3DECyl zNURBS3DCone zNURBS3DTorus zNURBS3DBox zNURBS3DAlloc
  nu_net nu_0 nu_1 nu_n0 nu_n1 nc_cp nc_w bs_order bs_knot bs_slice fold_left seq Nat.sub Nat.eqb Nat.leb orb andb Nat.add] beta iota zeta.

Lemma ellips_net e sl : exists n, zNURBS3DEllips e sl = Some n /\ nu_n0 n = 9%nat /\ nu_n1 n = 5%nat /\ nu_0 n = BS 2 ellipsKnots sl /\ nu_1 n = BS 2 [0; 0; 0; 1/2; 1/2; 1; 1; 1] sl /\
  (forall i j, (i < 9)%nat -> (j < 5)%nat -> zNURBS3DWeight n i j = arcWeight i * arcWeight j) /\
  (forall i j, (i < 9)%nat -> (j < 5)%nat -> zNURBS3DCP n i j = vadd (vadd (fpos (elf e)) (vscale (nth j [0; 1; 1; 1; 0] 0) (vadd (vscale (vx (elrad e) * sqx i) (bx (fatt (elf e)))) (vscale (vy (elrad e) * sqy i) (by_ (fatt (elf e)))))))
     (vscale (nth j [-1; -1; 0; 1; 1] 0) (vscale (vz (elrad e)) (bz (fatt (elf e)))))).
Proof.
  eexists. split; [reflexivity|]. split; [reflexivity|]. split; [reflexivity|]. split; [reflexivity|]. split; [reflexivity|]. split.
  - intros i j I J. do 9 (destruct i as [|i]; [do 5 (destruct j as [|j]; [netc; reflexivity|]); lia|]); lia.
  - intros i j I J. do 9 (destruct i as [|i]; [do 5 (destruct j as [|j]; [netc; unfold sqx, sqy; cbn [nth]; zvg; apply vec3_ext; spec_unfold; ring|]); lia|]); lia.
Qed.
Lemma ecyl_net c sl : exists n, zNURBS3DECyl c sl = Some n /\ nu_n0 n = 9%nat /\ nu_n1 n = 4%nat /\ nu_0 n = BS 2 ellipsKnots sl /\ nu_1 n = BS 1 [0; 0; 1; 1; 2; 2] sl /\
  (forall i j, (i < 9)%nat -> (j < 4)%nat -> zNURBS3DWeight n i j = arcWeight i * 1) /\
  (forall i j, (i < 9)%nat -> (j < 4)%nat -> zNURBS3DCP n i j = vadd (vadd (ec0 c) (vscale (nth j [0; 1; 1; 0] 0) (vadd (vscale (er0 c * sqx i) (ev0 c)) (vscale (er1 c * sqy i) (ev1 c)))))
     (vscale (nth j [0; 0; 1; 1] 0) (vsub (ec1 c) (ec0 c)))).
Proof.
  eexists. split; [reflexivity|]. split; [reflexivity|]. split; [reflexivity|]. split; [reflexivity|]. split; [reflexivity|]. split.
  - intros i j I J. do 9 (destruct i as [|i]; [do 4 (destruct j as [|j]; [netc; cbn [arcWeight Nat.even]; ring|]); lia|]); lia.
  - intros i j I J. do 9 (destruct i as [|i]; [do 4 (destruct j as [|j]; [netc; unfold sqx, sqy, zECyl3DAxis; cbn [nth]; zvg; apply vec3_ext; spec_unfold; ring|]); lia|]); lia.
Qed.
Lemma cone_net c sl ax ay : zVec3DOrthoSpace (zCone3DAxis c) = Some (ax, ay) -> exists n, zNURBS3DCone c sl = Some n /\ nu_n0 n = 9%nat /\ nu_n1 n = 3%nat /\ nu_0 n = BS 2 ellipsKnots sl /\ nu_1 n = BS 1 [0; 0; 1; 2; 2] sl /\
  (forall i j, (i < 9)%nat -> (j < 3)%nat -> zNURBS3DWeight n i j = arcWeight i * 1) /\
  (forall i j, (i < 9)%nat -> (j < 3)%nat -> zNURBS3DCP n i j = vadd (vadd (kcen c) (vscale (nth j [0; 1; 0] 0) (vadd (vscale (krad c * sqx i) (snd (zVec3DNormalizeDRC ax))) (vscale (krad c * sqy i) (snd (zVec3DNormalizeDRC ay))))))
     (vscale (nth j [0; 0; 1] 0) (vsub (kvert c) (kcen c)))).
Proof.
  intros E. unfold zNURBS3DCone. rewrite E. generalize (snd (zVec3DNormalizeDRC ax)) (snd (zVec3DNormalizeDRC ay)). intros a b. clear.
  eexists. split; [reflexivity|]. split; [reflexivity|]. split; [reflexivity|]. split; [reflexivity|]. split; [reflexivity|]. split.
  - intros i j I J. do 9 (destruct i as [|i]; [do 3 (destruct j as [|j]; [netc; cbn [arcWeight Nat.even]; ring|]); lia|]); lia.
  - intros i j I J. do 9 (destruct i as [|i]; [do 3 (destruct j as [|j]; [netc; unfold sqx, sqy, zCone3DAxis; cbn [nth]; zvg; apply vec3_ext; spec_unfold; ring|]); lia|]); lia.
Qed.
Lemma torus_net c ax ay az rr r sl : exists n, zNURBS3DTorus c ax ay az rr r sl = Some n /\ nu_n0 n = 9%nat /\ nu_n1 n = 9%nat /\ nu_0 n = BS 2 ellipsKnots sl /\ nu_1 n = BS 2 ellipsKnots sl /\
  (forall i j, (i < 9)%nat -> (j < 9)%nat -> zNURBS3DWeight n i j = arcWeight i * arcWeight j) /\
  (forall i j, (i < 9)%nat -> (j < 9)%nat -> zNURBS3DCP n i j = vadd (vadd c (vscale (rr + r * sqx j) (vadd (vscale (sqx i) ax) (vscale (sqy i) ay)))) (vscale (sqy j) (vscale r az))).
Proof.
  eexists. split; [reflexivity|]. split; [reflexivity|]. split; [reflexivity|]. split; [reflexivity|]. split; [reflexivity|]. split.
  - intros i j I J. do 9 (destruct i as [|i]; [do 9 (destruct j as [|j]; [netc; reflexivity|]); lia|]); lia.
  - intros i j I J. do 9 (destruct i as [|i]; [do 9 (destruct j as [|j]; [netc; unfold sqx, sqy; cbn [nth]; zvg; apply vec3_ext; spec_unfold; ring|]); lia|]); lia.
Qed.
(** corners of a face of a box in cyclic order *)
Definition rgx (j : nat) : R := nth j [1; -1; -1; 1; 1] 0.
Definition rgy (j : nat) : R := nth j [1; 1; -1; -1; 1] 0.
Lemma box_net b sl : exists n, zNURBS3DBox b sl = Some n /\ nu_n0 n = 4%nat /\ nu_n1 n = 5%nat /\ nu_0 n = BS 1 [0; 0; 1; 1; 2; 2] sl /\ nu_1 n = BS 1 [0; 0; 1; 2; 3; 4; 4] sl /\
  (forall i j, (i < 4)%nat -> (j < 5)%nat -> zNURBS3DWeight n i j = 1) /\
  (forall i j, (i < 4)%nat -> (j < 5)%nat -> zNURBS3DCP n i j = act (bframe b) (V3 (nth i [0; 1; 1; 0] 0 * (vx (bspan b) / 2 * rgx j)) (nth i [0; 1; 1; 0] 0 * (vy (bspan b) / 2 * rgy j)) (nth i [1; 1; -1; -1] 0 * (vz (bspan b) / 2)))).
Proof.
  eexists. split; [reflexivity|]. split; [reflexivity|]. split; [reflexivity|]. split; [reflexivity|]. split; [reflexivity|]. split.
  - intros i j I J. do 4 (destruct i as [|i]; [do 5 (destruct j as [|j]; [netc; reflexivity|]); lia|]); lia.
  - intros i j I J. do 4 (destruct i as [|i]; [do 5 (destruct j as [|j]; [netc; unfold rgx, rgy, zBox3DVert, zBox3DCenter, zBox3DAxis, zBox3DSpan, zXform3D, zMulMat3DVec3D, zVec3DInnerProd, act; cbn [nth Nat.testbit xorb Nat.odd Nat.even Nat.div2 negb vnth]; zvg; apply vec3_ext; spec_unfold; cbn; try field|]); lia|]); lia.
Qed.

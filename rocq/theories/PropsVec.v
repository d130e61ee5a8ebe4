(** Properties C01-C03: names, normalisation, projection. *)
From Verif Require Import FactsVec.
Open Scope R_scope.

(** * C01 *)

(** Reversal is an involution on the valid directions (0..8), only NONE (0) is
    its own reverse, and the names of a direction and its reverse are opposite. *)
Theorem C01_dir_rev : forall d, (0 <= d <= 8)%Z ->
  (0 <= zDirRev d <= 8)%Z /\ zDirRev (zDirRev d) = d /\
  (zDirRev d = d <-> d = 0%Z) /\
  (d <> 0%Z -> exists a b, zDirStr d = Some a /\ zDirStr (zDirRev d) = Some b /\ opposite a b).
Proof. exact dir_rev_correct. Qed.
Print Assumptions C01_dir_rev.
Example C01_dir_rev_ex : zDirRev 3 = 4%Z /\ zDirStr 3 = Some "forward"%string /\ zDirStr 4 = Some "backward"%string.
Proof. repeat split. Qed.

(** Exactly the values 0..5 have axis names; a string names axis a iff it is the
    name of a; every other string gives the invalid axis (-1). *)
Theorem C01_axis_names :
  (forall a, (exists s, zAxisStr a = Some s) <-> (0 <= a <= 5)%Z) /\
  (forall a s, zAxisStr a = Some s <-> (zAxisFromStr (Some s) = a /\ a <> (-1)%Z)) /\
  (forall s, zAxisFromStr (Some s) = (-1)%Z <-> ~ In s ["x"; "y"; "z"; "tilt"; "elev"; "azim"]%string) /\
  zAxisFromStr None = (-1)%Z.
Proof. exact (conj axis_str_valid (conj axis_str_from (conj axis_from_invalid eq_refl))). Qed.
Print Assumptions C01_axis_names.
Example C01_axis_names_ex : zAxisFromStr (Some "tilt"%string) = 3%Z /\ zAxisFromStr (Some "roll"%string) = (-1)%Z.
Proof. split; reflexivity. Qed.

Theorem C01_dir_names :
  (forall a, (exists s, zDirStr a = Some s) <-> (0 <= a <= 8)%Z) /\
  (forall a s, zDirStr a = Some s <-> (zDirFromStr (Some s) = a /\
     In s ["none"; "right"; "left"; "forward"; "backward"; "up"; "down"; "cw"; "ccw"]%string)) /\
  (forall s, ~ In s ["none"; "right"; "left"; "forward"; "backward"; "up"; "down"; "cw"; "ccw"]%string ->
     zDirFromStr (Some s) = 0%Z) /\
  zDirFromStr None = 0%Z.
Proof. exact (conj dir_str_valid (conj dir_str_from (conj dir_from_invalid eq_refl))). Qed.
Print Assumptions C01_dir_names.
Example C01_dir_names_ex : zDirFromStr (Some "ccw"%string) = 8%Z /\ zDirFromStr (Some "CCW"%string) = 0%Z.
Proof. split; reflexivity. Qed.

(** * C02 *)

Theorem C02_normalize3 : forall v old, ~ negligible v ->
  exists u, zVec3DNormalize v old = (norm v, u) /\ norm u = 1 /\ vscale (norm v) u = v.
Proof. exact normalize3_ok. Qed.
Print Assumptions C02_normalize3.
Example C02_normalize3_ex : ~ negligible (V3 3 4 0).
Proof. intros (H & _). cbn in H. pose proof zTOL_small. unfold Rabs in H. destruct Rcase_abs; lra. Qed.

Theorem C02_normalize3_fail : forall v old, negligible v -> zVec3DNormalize v old = (0, old).
Proof. exact normalize3_tiny. Qed.
Print Assumptions C02_normalize3_fail.
Example C02_normalize3_fail_ex : negligible (V3 0 (zTOL / 2) (- zTOL / 2)).
Proof. pose proof zTOL_pos. repeat split; cbn; unfold Rabs; destruct Rcase_abs; lra. Qed.

Theorem C02_normalize2 : forall v old, ~ negligible2 v ->
  exists u, zVec2DNormalize v old = (norm_2 v, u) /\ norm_2 u = 1 /\ vscale2 (norm_2 v) u = v.
Proof. exact normalize2_ok. Qed.
Print Assumptions C02_normalize2.
Theorem C02_normalize2_fail : forall v old, negligible2 v -> zVec2DNormalize v old = (-1, old).
Proof. exact normalize2_tiny. Qed.
Print Assumptions C02_normalize2_fail.
Example C02_normalize2_ex : ~ negligible2 (V2 0 zTOL) /\ negligible2 (V2 0 (zTOL / 2)).
Proof.
  pose proof zTOL_pos. split.
  - intros (_ & H1). cbn in H1. unfold Rabs in H1. destruct Rcase_abs; lra.
  - split; cbn; unfold Rabs; destruct Rcase_abs; lra.
Qed.

(** division fails exactly for 0 and otherwise is inverse to scaling *)
Theorem C02_div : (forall v k,
  (k = 0 /\ zVec3DDiv v k = None) \/ (k <> 0 /\ exists u, zVec3DDiv v k = Some u /\ vscale k u = v)) /\
  (forall v k,
  (k = 0 /\ zVec2DDiv v k = None) \/ (k <> 0 /\ exists u, zVec2DDiv v k = Some u /\ vscale2 k u = v)).
Proof. exact (conj div3_spec div2_spec). Qed.
Print Assumptions C02_div.

(** * C03 *)

(** the projection is the unique multiple of n whose rest is orthogonal to n *)
Theorem C03_proj : forall v n, ~ negligible n ->
  exists p, zVec3DProj v n = Some p /\ (exists k, p = vscale k n) /\ dot (vsub v p) n = 0 /\
    (forall k, dot (vsub v (vscale k n)) n = 0 -> vscale k n = p).
Proof. exact proj3_full. Qed.
Print Assumptions C03_proj.
Theorem C03_orthogonalize : forall v n, ~ negligible n ->
  exists p o, zVec3DProj v n = Some p /\ zVec3DOrthogonalize v n = Some o /\ o = vsub v p /\ dot o n = 0.
Proof. exact orth3_spec. Qed.
Print Assumptions C03_orthogonalize.
Theorem C03_proj_refuse : forall v n, negligible n -> zVec3DProj v n = None /\ zVec3DOrthogonalize v n = None.
Proof. exact proj3_tiny. Qed.
Print Assumptions C03_proj_refuse.
Theorem C03_proj2 : forall v n, ~ negligible2 n ->
  exists p, zVec2DProj v n = Some p /\ (exists k, p = vscale2 k n) /\ dot2 (vsub2 v p) n = 0.
Proof. exact proj2_spec. Qed.
Print Assumptions C03_proj2.

(** orthonormal space of every vector of at least three tolerances *)
Theorem C03_orthonormal_space : forall v, 3 * zTOL <= norm v ->
  exists u s1 s2, zVec3DOrthonormalSpace v = Some (u, s1, s2) /\
    vscale (norm v) u = v /\
    norm u = 1 /\ norm s1 = 1 /\ norm s2 = 1 /\
    dot u s1 = 0 /\ dot u s2 = 0 /\ dot s1 s2 = 0 /\ cross u s1 = s2.
Proof. exact orthonormal_space_spec. Qed.
Print Assumptions C03_orthonormal_space.
Theorem C03_orthonormal : forall v, 3 * zTOL <= norm v ->
  exists o, zVec3DOrthonormal v = Some o /\ norm o = 1 /\ dot o v = 0.
Proof. exact orthonormal_full. Qed.
Print Assumptions C03_orthonormal.
Example C03_orthonormal_space_ex : 3 * zTOL <= norm (V3 0 0 1).
Proof.
  replace (norm (V3 0 0 1)) with 1; [pose proof zTOL_small; lra|].
  symmetry. unfold norm, dot; cbn. apply sqrt_unique; lra.
Qed.
(** the orthogonal space: the second vector has the length of the input, not 1
    (the header comment says both are normalised) *)
Theorem C03_orthospace : forall v, 3 * zTOL <= norm v ->
  exists s1 s2, zVec3DOrthoSpace v = Some (s1, s2) /\
    norm s1 = 1 /\ norm s2 = norm v /\ dot v s1 = 0 /\ dot v s2 = 0 /\ dot s1 s2 = 0 /\ cross v s1 = s2.
Proof. exact orthospace_spec. Qed.
Print Assumptions C03_orthospace.
(** finding: some vectors that are not negligible for the library's own test
    are refused by the orthonormal builder *)
Theorem C03_orthonormal_gap_refuted : exists v, ~ negligible v /\ zVec3DOrthonormal v = None.
Proof. exact orthonormal_gap. Qed.
Print Assumptions C03_orthonormal_gap_refuted.

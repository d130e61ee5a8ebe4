(** Proofs about elevation maps: the grid. *)
From Verif Require Import Base Spec SpecTerra ModelVec ModelMat ModelTerra FactsAlg FactsVec FactsMat FactsTerra FactsColor.
From Coq Require Import List ZArith Lra Lia Permutation.
Import ListNotations.
Open Scope R_scope.

Definition same_frame (t t' : terra) : Prop :=
  xmin t' = xmin t /\ xmax t' = xmax t /\ ymin t' = ymin t /\ ymax t' = ymax t /\ zmin t' = zmin t /\ zmax t' = zmax t /\ tdx t' = tdx t /\ tdy t' = tdy t /\
  th_var t' = th_var t /\ th_grd t' = th_grd t /\ th_res t' = th_res t /\ nx t' = nx t /\ ny t' = ny t.
Lemma same_frame_refl t : same_frame t t.
Proof. repeat split. Qed.
Lemma same_frame_trans a b c : same_frame a b -> same_frame b c -> same_frame a c.
Proof. unfold same_frame. intuition congruence. Qed.
Lemma same_frame_with t g : same_frame t (with_grid t g).
Proof. repeat split. Qed.

Lemma valid_iff t i j : valid t i j = true <-> (0 <= i < nx t /\ 0 <= j < ny t)%Z.
Proof. unfold valid. rewrite !Bool.andb_true_iff, !Z.leb_le, !Z.ltb_lt. lia. Qed.
Lemma valid_same t t' i j : same_frame t t' -> valid t' i j = valid t i j.
Proof. intros H. unfold same_frame in H. unfold valid. intuition congruence. Qed.

(** all cells of the grid carry a state reached from some points *)
Definition grid_inv (L : Z -> Z -> list vec3) (t : terra) : Prop := forall i j, valid t i j = true -> cell_inv (L i j) (grid t i j).

Lemma upd_at_spec L t i j p : grid_inv L t -> exists t', upd_at t i j p = Some t' /\ same_frame t t' /\
  grid_inv (fun a b => if ((a =? i) && (b =? j))%Z then L a b ++ [p] else L a b) t' /\
  (forall a b, (a, b) <> (i, j) -> grid t' a b = grid t a b) /\
  (valid t i j = true -> zTerraCellUpdate (grid t i j) p = Some (grid t' i j)).
Proof.
  intros G. unfold upd_at, zTerraGrid. destruct (valid t i j) eqn:V.
  - destruct (cell_inv_step _ _ p (G i j V)) as (c' & E & I & _). rewrite E. eexists. split; [reflexivity|]. split; [apply same_frame_with|]. split; [|split].
    + intros a b Vab. unfold set_cell; cbn [grid with_grid]. destruct ((a =? i) && (b =? j))%Z eqn:Q.
      * apply Bool.andb_true_iff in Q. rewrite !Z.eqb_eq in Q. destruct Q as [-> ->]. exact I.
      * apply G. exact Vab.
    + intros a b N. unfold set_cell; cbn [grid with_grid]. destruct ((a =? i) && (b =? j))%Z eqn:Q; [|reflexivity].
      apply Bool.andb_true_iff in Q. rewrite !Z.eqb_eq in Q. destruct Q as [-> ->]. congruence.
    + intros _. unfold set_cell; cbn [grid with_grid]. rewrite !Z.eqb_refl. reflexivity.
  - exists t. split; [reflexivity|]. split; [apply same_frame_refl|]. split; [|split; [reflexivity|discriminate]].
    intros a b Vab. destruct ((a =? i) && (b =? j))%Z eqn:Q; [|apply G; exact Vab].
    apply Bool.andb_true_iff in Q. rewrite !Z.eqb_eq in Q. destruct Q as [-> ->]. congruence.
Qed.

(** the four corners of the square of a point *)
Definition corner (i j a b : Z) : bool := (((a =? i) || (a =? i + 1)) && ((b =? j) || (b =? j + 1)))%Z.

Lemma four_spec L t i j p : grid_inv L t -> exists t',
  bind (upd_at t i j p) (fun t => bind (upd_at t (i + 1) j p) (fun t => bind (upd_at t i (j + 1) p) (fun t => bind (upd_at t (i + 1) (j + 1) p) (fun t => Some (t, (i, j)))))) = Some (t', (i, j)) /\
  same_frame t t' /\ grid_inv (fun a b => if corner i j a b then L a b ++ [p] else L a b) t'.
Proof.
  intros G.
  destruct (upd_at_spec _ t i j p G) as (t1 & E1 & S1 & G1 & _). rewrite E1; cbn [bind].
  destruct (upd_at_spec _ t1 (i + 1)%Z j p G1) as (t2 & E2 & S2 & G2 & _). rewrite E2; cbn [bind].
  destruct (upd_at_spec _ t2 i (j + 1)%Z p G2) as (t3 & E3 & S3 & G3 & _). rewrite E3; cbn [bind].
  destruct (upd_at_spec _ t3 (i + 1)%Z (j + 1)%Z p G3) as (t4 & E4 & S4 & G4 & _). rewrite E4; cbn [bind].
  exists t4. split; [reflexivity|]. split; [eauto using same_frame_trans|].
  intros a b V. specialize (G4 a b V). cbv beta in G4. unfold corner.
  destruct (Z.eqb_spec a i), (Z.eqb_spec a (i + 1)), (Z.eqb_spec b j), (Z.eqb_spec b (j + 1)); cbn in *; try lia; exact G4.
Qed.

Lemma corner_window x0 y0 dx dy p a b : 0 < dx -> 0 < dy -> corner (Int_part ((vx p - x0) / dx)) (Int_part ((vy p - y0) / dy)) a b = in_window x0 y0 dx dy a b p.
Proof.
  intros DX DY.
  assert (K : forall u0 d u c, 0 < d -> ((c =? Int_part ((u - u0) / d)) || (c =? Int_part ((u - u0) / d) + 1))%Z = true <-> u0 + (IZR c - 1) * d <= u < u0 + (IZR c + 1) * d).
  { intros u0 d u c D. set (r := (u - u0) / d). assert (U : u = u0 + r * d) by (unfold r; field; lra).
    destruct (base_Int_part r) as [B1 B2]. rewrite Bool.orb_true_iff, !Z.eqb_eq. split.
    - intros [-> | ->]; rewrite U; [|rewrite plus_IZR]; split; nra.
    - intros [H1 H2]. rewrite U in H1, H2.
      assert (A1 : IZR c - 1 <= r) by (apply Rmult_le_reg_r with d; [exact D|lra]). assert (A2 : r < IZR c + 1) by (apply Rmult_lt_reg_r with d; [exact D|lra]).
      assert (C1 : (c - 2 < Int_part r)%Z) by (apply lt_IZR; rewrite minus_IZR; lra). assert (C2 : (Int_part r < c + 1)%Z) by (apply lt_IZR; rewrite plus_IZR; lra). lia. }
  apply Bool.eq_true_iff_eq. rewrite in_window_iff. unfold corner, window. rewrite Bool.andb_true_iff, (K x0 dx (vx p) a DX), (K y0 dy (vy p) b DY). reflexivity.
Qed.

(** a point within the range of heights *)
Lemma macro_in L t p ij : grid_inv L t -> 0 < tdx t -> 0 < tdy t -> zmin t <= vz p <= zmax t ->
  exists t' ij', zTerraUpdate_macro t p ij = Some (t', ij') /\ same_frame t t' /\
  grid_inv (fun a b => if in_window (xmin t) (ymin t) (tdx t) (tdy t) a b p then L a b ++ [p] else L a b) t'.
Proof.
  intros G DX DY Z. unfold zTerraUpdate_macro, zTerraGetBaseGrid.
  destruct (Rltb_reflect (vz p) (zmin t)); [lra|]. destruct (Rltb_reflect (zmax t) (vz p)); [lra|]. cbn [orb].
  destruct (Reqb_reflect (tdx t) 0); [lra|]. destruct (Reqb_reflect (tdy t) 0); [lra|]. cbn [orb].
  set (i := Int_part ((vx p - xmin t) / tdx t)). set (j := Int_part ((vy p - ymin t) / tdy t)).
  destruct (four_spec L t i j p G) as (t' & E & S0 & G').
  assert (Q : match zTerraGrid t i j with Some _ => upd_at t i j p | None => Some t end = upd_at t i j p) by (unfold upd_at; destruct (zTerraGrid t i j); reflexivity).
  rewrite Q, E. exists t', (i, j). split; [reflexivity|]. split; [exact S0|].
  intros a b V. specialize (G' a b V). cbv beta in *. unfold i, j in G'. rewrite corner_window in G' by assumption. exact G'.
Qed.

Definition wf (t : terra) (a b : Z) (p : vec3) : bool := in_window (xmin t) (ymin t) (tdx t) (tdy t) a b p.
Lemma wf_same t t' : same_frame t t' -> forall a b p, wf t' a b p = wf t a b p.
Proof. unfold same_frame, wf. intros (A & _ & B & _ & _ & _ & C & D & _) a b p. rewrite A, B, C, D. reflexivity. Qed.

Lemma inv_ext L L' t : (forall i j, L i j = L' i j) -> grid_inv L t -> grid_inv L' t.
Proof. intros E H i j V. rewrite <- E. apply H. exact V. Qed.

Lemma loop_in l : forall L t ij, grid_inv L t -> 0 < tdx t -> 0 < tdy t -> Forall (fun p => zmin t <= vz p <= zmax t) l ->
  exists t', ident_loop t l ij = Some t' /\ same_frame t t' /\ grid_inv (fun a b => L a b ++ filter (wf t a b) l) t'.
Proof.
  induction l as [|p l IH]; intros L t ij G DX DY F; cbn [ident_loop].
  - exists t. split; [reflexivity|]. split; [apply same_frame_refl|]. apply (inv_ext L); [intros; cbn; rewrite app_nil_r; reflexivity|exact G].
  - inversion F as [|? ? F1 F2]; subst. destruct (macro_in L t p ij G DX DY F1) as (t1 & ij1 & E1 & S1 & G1). rewrite E1.
    pose proof S1 as S1'. destruct S1 as (X1 & _ & X2 & _ & X3 & X4 & X5 & X6 & _).
    destruct (IH _ t1 ij1 G1) as (t' & E & S2 & G2); [rewrite X5; exact DX|rewrite X6; exact DY|rewrite X3, X4; exact F2|].
    exists t'. split; [exact E|]. split; [exact (same_frame_trans _ _ _ S1' S2)|].
    eapply inv_ext; [|exact G2]. intros a b. cbv beta. fold (wf t a b p). cbn [filter].
    replace (filter (wf t1 a b) l) with (filter (wf t a b) l) by (apply filter_ext; intros q; symmetry; apply wf_same; exact S1').
    destruct (wf t a b p); [rewrite <- app_assoc; reflexivity|reflexivity].
Qed.

(** updates one by one *)
Fixpoint upd_all (t : terra) (l : list vec3) : option terra :=
  match l with [] => Some t | p :: l' => match zTerraUpdate t p with Some t' => upd_all t' l' | None => None end end.
Lemma upd_all_in l : forall L t, grid_inv L t -> 0 < tdx t -> 0 < tdy t -> Forall (fun p => zmin t <= vz p <= zmax t) l ->
  exists t', upd_all t l = Some t' /\ same_frame t t' /\ grid_inv (fun a b => L a b ++ filter (wf t a b) l) t'.
Proof.
  induction l as [|p l IH]; intros L t G DX DY F; cbn [upd_all].
  - exists t. split; [reflexivity|]. split; [apply same_frame_refl|]. apply (inv_ext L); [intros; cbn; rewrite app_nil_r; reflexivity|exact G].
  - inversion F as [|? ? F1 F2]; subst. unfold zTerraUpdate at 1. destruct (macro_in L t p (0%Z, 0%Z) G DX DY F1) as (t1 & ij1 & E1 & S1 & G1). rewrite E1.
    pose proof S1 as S1'. destruct S1 as (X1 & _ & X2 & _ & X3 & X4 & X5 & X6 & _).
    destruct (IH _ t1 G1) as (t' & E & S2 & G2); [rewrite X5; exact DX|rewrite X6; exact DY|rewrite X3, X4; exact F2|].
    exists t'. split; [exact E|]. split; [exact (same_frame_trans _ _ _ S1' S2)|].
    eapply inv_ext; [|exact G2]. intros a b. cbv beta. fold (wf t a b p). cbn [filter].
    replace (filter (wf t1 a b) l) with (filter (wf t a b) l) by (apply filter_ext; intros q; symmetry; apply wf_same; exact S1').
    destruct (wf t a b p); [rewrite <- app_assoc; reflexivity|reflexivity].
Qed.

Lemma alloc_spec x0 y0 dx dy xs ys z0 z1 : (0 < xs)%Z -> (0 < ys)%Z ->
  exists t, zTerraAllocGrid x0 y0 dx dy xs ys z0 z1 = Some t /\ xmin t = x0 /\ ymin t = y0 /\ tdx t = dx /\ tdy t = dy /\ nx t = xs /\ ny t = ys /\ zmin t = z0 /\ zmax t = z1 /\
  xmax t = zTerraX t (xs - 1) /\ ymax t = zTerraY t (ys - 1) /\ th_var t = / 10 /\ th_grd t = cos (PI / 4) /\ th_res t = / 10 /\ grid_inv (fun _ _ => []) t.
Proof.
  intros HX HY. unfold zTerraAllocGrid. destruct (Z.eqb_spec xs 0); [lia|]. destruct (Z.eqb_spec ys 0); [lia|]. cbn [orb].
  eexists. split; [reflexivity|]. do 13 (split; [reflexivity|]). intros i j _. cbn. apply cell_inv_init.
Qed.

Lemma form_normal k : let n := snd (zVec3DNormalizeDRC (V3 (- vx k) (- vy k) 1)) in
  norm n = 1 /\ 0 < vz n /\ forall x y, dot n (V3 x y (plane_z k x y - vz k)) = 0.
Proof.
  cbv zeta. set (v := V3 (- vx k) (- vy k) 1).
  assert (NN : ~ negligible v) by (unfold negligible, v; cbn; rewrite Rabs_R1; intros (_ & _ & H); pose proof zTOL_small; lra).
  rewrite (normalizeDRC_ok v NN).
  assert (PD : 0 < dot v v) by (unfold v, dot; cbn; nra).
  assert (P : 0 < norm v) by (unfold norm; apply sqrt_lt_R0; exact PD).
  assert (SQ : norm v * norm v = dot v v) by (unfold norm; apply sqrt_sqrt; lra).
  split; [|split].
  - unfold norm at 1. replace (dot (vscale (1 / norm v) v) (vscale (1 / norm v) v)) with (dot v v / (norm v * norm v)) by (unfold dot, vscale; cbn; field; lra).
    rewrite SQ. unfold Rdiv. rewrite Rinv_r by lra. apply sqrt_1.
  - unfold vscale, v; cbn [vz]. apply Rmult_lt_0_compat; [|lra]. unfold Rdiv. apply Rmult_lt_0_compat; [lra|apply Rinv_0_lt_compat; exact P].
  - intros x y. unfold plane_z, dot, vscale, v; cbn. ring.
Qed.

(** what a map holds after single updates and an identification *)
Lemma terra_ident x0 y0 dx dy xs ys z0 z1 l0 l : (0 < xs)%Z -> (0 < ys)%Z -> 0 < dx -> 0 < dy -> Forall (fun p => z0 <= vz p <= z1) (l0 ++ l) ->
  exists t t1 t2, zTerraAllocGrid x0 y0 dx dy xs ys z0 z1 = Some t /\ upd_all t l0 = Some t1 /\ zTerraIdent t1 l = Some t2 /\
  forall i j, (0 <= i < xs)%Z -> (0 <= j < ys)%Z -> exists c, zTerraGrid t2 i j = Some c /\
    let seen := filter (in_window x0 y0 dx dy i j) (l0 ++ l) in
    fits seen (tprm c) /\ tnp c = length seen /\ (exists s, online seen s /\ INR (length seen) * tvar c = s) /\ 0 <= tvar c /\
    tz c = plane_z (tprm c) (x0 + IZR i * dx) (y0 + IZR j * dy) /\
    norm (tnorm c) = 1 /\ 0 < vz (tnorm c) /\ (forall x y, dot (tnorm c) (V3 x y (plane_z (tprm c) x y - vz (tprm c))) = 0).
Proof.
  intros HX HY DX DY F. apply Forall_app in F. destruct F as [F0 F1].
  destruct (alloc_spec x0 y0 dx dy xs ys z0 z1 HX HY) as (t & E & A1 & A2 & A3 & A4 & A5 & A6 & A7 & A8 & _ & _ & _ & _ & _ & G).
  destruct (upd_all_in l0 _ t G) as (t1 & E1 & S1 & G1); [rewrite A3; exact DX|rewrite A4; exact DY|rewrite A7, A8; exact F0|].
  pose proof S1 as S1'. destruct S1 as (X1 & X2 & X3 & X4 & X5 & X6 & X7 & X8 & X9 & X10 & X11 & X12 & X13).
  destruct (loop_in l _ t1 (0%Z, 0%Z) G1) as (t2 & E2 & S2 & G2); [rewrite X7, A3; exact DX|rewrite X8, A4; exact DY|rewrite X5, X6, A7, A8; exact F1|].
  exists t, t1, (zTerraCheckTravs (zTerraForm t2)). split; [exact E|]. split; [exact E1|]. split; [unfold zTerraIdent; rewrite E2; reflexivity|].
  intros i j Hi Hj.
  assert (V : valid t2 i j = true) by (rewrite (valid_same _ _ _ _ S2), (valid_same _ _ _ _ S1'); apply valid_iff; rewrite A5, A6; auto).
  specialize (G2 i j V). cbv beta in G2. rewrite app_nil_l in G2.
  assert (W : filter (wf t i j) l0 ++ filter (wf t1 i j) l = filter (in_window x0 y0 dx dy i j) (l0 ++ l)).
  { rewrite filter_app. f_equal; apply filter_ext; intros p; [|rewrite (wf_same _ _ S1')]; unfold wf; rewrite A1, A2, A3, A4; reflexivity. }
  rewrite W in G2.
  unfold zTerraGrid. replace (valid (zTerraCheckTravs (zTerraForm t2)) i j) with true by (symmetry; exact V).
  eexists. split; [reflexivity|]. unfold zTerraCheckTravs; cbn [grid with_grid]. replace (valid (zTerraForm t2) i j) with true by (symmetry; exact V).
  unfold zTerraForm; cbn [grid with_grid]. rewrite V. cbn [tprm tnp tvar tz tnorm zTerraCellForm].
  destruct (cell_inv_obs _ _ G2) as (B1 & B2 & B3 & B4). cbv zeta.
  split; [exact B1|]. split; [exact B2|]. split; [exact B3|]. split; [exact B4|]. split.
  - unfold zTerraCellZ, plane_z, zTerraX, zTerraY. destruct S2 as (Y1 & _ & Y3 & _ & _ & _ & Y7 & Y8 & _). rewrite Y1, Y3, Y7, Y8, X1, X3, X7, X8, A1, A2, A3, A4. reflexivity.
  - apply form_normal.
Qed.

(** traversability as decided by an identification *)
Lemma terra_travs t i j c : valid t i j = true -> zTerraGrid (zTerraCheckTravs t) i j = Some c ->
  ttravs c = true <-> tvar c <= th_var t /\ th_grd t <= vz (tnorm c) /\
   (forall a b c', (Z.abs (a - i) <= 1)%Z -> (Z.abs (b - j) <= 1)%Z -> (a, b) <> (i, j) -> zTerraGrid (zTerraCheckTravs t) a b = Some c' ->
      Rabs (plane_z (tprm c') (zTerraX t i) (zTerraY t j) - tz c) <= th_res t).
Proof.
  intros V E. unfold zTerraGrid in E. replace (valid (zTerraCheckTravs t) i j) with true in E by (symmetry; exact V). injection E as <-.
  unfold zTerraCheckTravs; cbn [grid with_grid]. rewrite V. cbn [ttravs tvar tnorm tz].
  unfold zTerraCheckGridTravs. set (g := grid t i j). rewrite zdot_spec. replace (dot (tnorm g) (V3 0 0 1)) with (vz (tnorm g)) by (unfold dot; cbn; ring).
  set (p := V3 (zTerraX t i) (zTerraY t j) (tz g)).
  assert (RES : forall a b, zTerraCheckGridTravsRes t a b p = true <-> forall c', zTerraGrid (zTerraCheckTravs t) a b = Some c' -> Rabs (plane_z (tprm c') (zTerraX t i) (zTerraY t j) - tz g) <= th_res t).
  { intros a b. unfold zTerraCheckGridTravsRes, zTerraGrid. replace (valid (zTerraCheckTravs t) a b) with (valid t a b) by reflexivity. destruct (valid t a b) eqn:Vab.
    - unfold zTerraCellResidual, zTerraCellZ, p; cbn [vx vy vz]. fold (plane_z (tprm (grid t a b)) (zTerraX t i) (zTerraY t j)).
      destruct (Rltb_reflect (th_res t) (Rabs (plane_z (tprm (grid t a b)) (zTerraX t i) (zTerraY t j) - tz g))) as [H | H]; split; intros K; try discriminate; try reflexivity.
      + exfalso. specialize (K _ eq_refl). cbn [grid with_grid zTerraCheckTravs] in K. rewrite Vab in K. cbn [tprm] in K. lra.
      + intros c' [= <-]. cbn [grid with_grid zTerraCheckTravs]. rewrite Vab. cbn [tprm]. lra.
    - split; [intros _ c'; discriminate|reflexivity]. }
  destruct (Rltb_reflect (th_var t) (tvar g)) as [H1 | H1]; [split; [discriminate|intros (H & _); lra]|].
  destruct (Rltb_reflect (vz (tnorm g)) (th_grd t)) as [H2 | H2]; [split; [discriminate|intros (_ & H & _); lra]|].
  rewrite !Bool.andb_true_iff, !RES. split.
  - intros (((((((K1 & K2) & K3) & K4) & K5) & K6) & K7) & K8). split; [lra|]. split; [lra|].
    intros a b c' HA HB HN HC.
    assert (DA : (a = i - 1 \/ a = i \/ a = i + 1)%Z) by lia. assert (DB : (b = j - 1 \/ b = j \/ b = j + 1)%Z) by lia.
    destruct DA as [-> | [-> | ->]], DB as [-> | [-> | ->]]; eauto; congruence.
  - intros (_ & _ & K). repeat match goal with |- _ /\ _ => split end; intros c' HC; (eapply K; [| | |exact HC]); try lia; intros [=]; lia.
Qed.

(** a point out of the range of heights still changes the map *)
Lemma terra_out_refuted x0 y0 dx dy xs ys z0 z1 p : (2 <= xs)%Z -> (2 <= ys)%Z -> vz p < z0 \/ z1 < vz p ->
  exists t t', zTerraAllocGrid x0 y0 dx dy xs ys z0 z1 = Some t /\ zTerraUpdate t p = Some t' /\
  forall i j, (i, j) = (1, 0)%Z \/ (i, j) = (0, 1)%Z \/ (i, j) = (1, 1)%Z -> exists c, zTerraGrid t' i j = Some c /\ tnp c = 1%nat /\ fits [p] (tprm c).
Proof.
  intros HX HY HZ. destruct (alloc_spec x0 y0 dx dy xs ys z0 z1 ltac:(lia) ltac:(lia)) as (t & E & A1 & A2 & A3 & A4 & A5 & A6 & A7 & A8 & _ & _ & _ & _ & _ & G).
  unfold zTerraUpdate, zTerraUpdate_macro, zTerraGetBaseGrid. 
  exists t.
  assert (Q : (Rltb (vz p) (zmin t) || Rltb (zmax t) (vz p))%bool = true).
  { rewrite A7, A8. destruct (Rltb_reflect (vz p) z0); [reflexivity|]. destruct (Rltb_reflect z1 (vz p)); [reflexivity|lra]. }
  rewrite Q. cbn [bind]. change (0 + 1)%Z with 1%Z.
  destruct (upd_at_spec _ t 1%Z 0%Z p G) as (t2 & E2 & S2 & G2 & _). rewrite E2; cbn [bind].
  destruct (upd_at_spec _ t2 0%Z 1%Z p G2) as (t3 & E3 & S3 & G3 & _). rewrite E3; cbn [bind].
  destruct (upd_at_spec _ t3 1%Z 1%Z p G3) as (t4 & E4 & S4 & G4 & _). rewrite E4; cbn [bind].
  exists t4. split; [exact E|]. split; [reflexivity|].
  assert (SF : same_frame t t4) by eauto using same_frame_trans.
  intros i j H.
  assert (V : valid t4 i j = true).
  { rewrite (valid_same _ _ _ _ SF). apply valid_iff. rewrite A5, A6. destruct H as [[= -> ->] | [[= -> ->] | [= -> ->]]]; lia. }
  unfold zTerraGrid. rewrite V. eexists. split; [reflexivity|].
  assert (I : cell_inv [p] (grid t4 i j)).
  { specialize (G4 i j V). destruct H as [[= -> ->] | [[= -> ->] | [= -> ->]]]; cbn in G4; exact G4. }
  destruct (cell_inv_obs _ _ I) as (B1 & B2 & _). split; [exact B2|exact B1].
Qed.

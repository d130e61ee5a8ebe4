(** The surfaces traced by the nets of the quadrics. *)
From Verif Require Import Base Spec SpecMesh SpecNurbs ModelNurbs FactsAlg FactsElem FactsNurbs FactsNurbs2 FactsNurbs3 FactsNurbs4.
From Coq Require Import List Lra Lia.
Import ListNotations.
Open Scope R_scope.

Lemma product_vec seg n u v a b c P Q Z a1 a2 b1 b2 z1 z2 : finds seg -> good_nurbs n -> in_params n u v ->
  (forall i j, (i < nu_n0 n)%nat -> (j < nu_n1 n)%nat -> zNURBS3DWeight n i j = a i * b j) ->
  (forall i j, (i < nu_n0 n)%nat -> (j < nu_n1 n)%nat -> zNURBS3DCP n i j = vadd c (vadd (vadd (vscale (a1 i * a2 j) P) (vscale (b1 i * b2 j) Q)) (vscale (z1 i * z2 j) Z))) ->
  exists su sv, at_seg (nu_0 n) u (bs_order (nu_0 n)) su /\ at_seg (nu_1 n) v (bs_order (nu_1 n)) sv /\ (su < nu_n0 n)%nat /\ (sv < nu_n1 n)%nat /\
  let U := su_ n a u su in let V := sv_ n b v sv in
  (1 / 2 <= U (fun _ => 1) -> 1 / 2 <= V (fun _ => 1) ->
   zNURBS3DVec seg n u v = Some (Some (vadd c (vadd (vadd (vscale (U a1 / U (fun _ => 1%R) * (V a2 / V (fun _ => 1%R))) P) (vscale (U b1 / U (fun _ => 1%R) * (V b2 / V (fun _ => 1%R))) Q)) (vscale (U z1 / U (fun _ => 1%R) * (V z2 / V (fun _ => 1%R))) Z))))).
Proof.
  intros F G D HW HC. destruct (found seg n u v F G D) as (I & A0 & A1 & S0 & S1). eexists _, _. split; [exact A0|]. split; [exact A1|]. split; [exact S0|]. split; [exact S1|]. cbv zeta. intros HU HV.
  rewrite vec_eval by exact I. rewrite (tensor_den n a b HW u v _ _ A0 A1 S0 S1), (tensor_num n a b c P Q Z a1 a2 b1 b2 z1 z2 HW u v _ _ A0 A1 S0 S1 HC).
  set (X := su_ n a u _ (fun _ => 1)) in *. set (Y := sv_ n b v _ (fun _ => 1)) in *. assert (1 / 4 <= X * Y) by nra. pose proof zTOL_small. assert (/ 1000000 < 1 / 4) by lra.
  unfold zIsTiny, zIsTol. rewrite Rabs_right by lra. destruct (Rltb_reflect (X * Y) zTOL); [lra|]. do 2 f_equal. apply vec3_ext; spec_unfold; field; split; nra.
Qed.
Lemma su_arcs n ks sl u su f : nu_0 n = BS 2 ks sl -> su_ n arcWeight u su f = arcs ks sl u su f.
Proof. intros E. unfold su_, arcs, Bu, Iu, active. rewrite E. reflexivity. Qed.
Lemma sv_arcs n ks sl v sv f : nu_1 n = BS 2 ks sl -> sv_ n arcWeight v sv f = arcs ks sl v sv f.
Proof. intros E. unfold sv_, arcs, Bv, Iv, active. rewrite E. reflexivity. Qed.
Lemma arcs_scale ks sl t k r f : arcs ks sl t k (fun i => r * f i) = r * arcs ks sl t k f.
Proof. unfold arcs. rewrite <- rsum_scale. apply rsum_ext. intros. ring. Qed.
Lemma arcs_plus ks sl t k f g : arcs ks sl t k (fun i => f i + g i) = arcs ks sl t k f + arcs ks sl t k g.
Proof. unfold arcs. rewrite <- rsum_plus. apply rsum_ext. intros. ring. Qed.

Lemma good_circle : good_knots 2 9 ellipsKnots.
Proof.
  unfold good_knots, ellipsKnots, knot_of. cbn [length]. repeat split; try lia; [|cbn [nth]; lra]. intros i j H.
  do 12 (destruct j as [|j]; [do 12 (destruct i as [|i]; [first [exfalso; lia|cbn [nth]; lra]|]); exfalso; lia|]). exfalso; lia.
Qed.
Lemma good_half : good_knots 2 5 halfKnots.
Proof.
  unfold good_knots, halfKnots, knot_of. cbn [length]. repeat split; try lia; [|cbn [nth]; lra]. intros i j H.
  do 8 (destruct j as [|j]; [do 8 (destruct i as [|i]; [first [exfalso; lia|cbn [nth]; lra]|]); exfalso; lia|]). exfalso; lia.
Qed.
Lemma good_line4 : good_knots 1 4 [0; 0; 1; 1; 2; 2].
Proof.
  unfold good_knots, knot_of. cbn [length]. repeat split; try lia; [|cbn [nth]; lra]. intros i j H.
  do 6 (destruct j as [|j]; [do 6 (destruct i as [|i]; [first [exfalso; lia|cbn [nth]; lra]|]); exfalso; lia|]). exfalso; lia.
Qed.
Lemma good_line3 : good_knots 1 3 [0; 0; 1; 2; 2].
Proof.
  unfold good_knots, knot_of. cbn [length]. repeat split; try lia; [|cbn [nth]; lra]. intros i j H.
  do 5 (destruct j as [|j]; [do 5 (destruct i as [|i]; [first [exfalso; lia|cbn [nth]; lra]|]); exfalso; lia|]). exfalso; lia.
Qed.
Lemma good_line5 : good_knots 1 5 [0; 0; 1; 2; 3; 4; 4].
Proof.
  unfold good_knots, knot_of. cbn [length]. repeat split; try lia; [|cbn [nth]; lra]. intros i j H.
  do 7 (destruct j as [|j]; [do 7 (destruct i as [|i]; [first [exfalso; lia|cbn [nth]; lra]|]); exfalso; lia|]). exfalso; lia.
Qed.

Lemma bxyz f q : act f q = vadd (fpos f) (vadd (vadd (vscale (vx q) (bx (fatt f))) (vscale (vy q) (by_ (fatt f)))) (vscale (vz q) (bz (fatt f)))).
Proof. unfold act, bx, by_, bz. apply vec3_ext; spec_unfold; ring. Qed.

(** * Ellipsoids *)
Lemma ellips_traces seg e sl : finds seg -> 0 < vx (elrad e) -> 0 < vy (elrad e) -> 0 < vz (elrad e) ->
  exists n, zNURBS3DEllips e sl = Some n /\ good_nurbs n /\ traces (zNURBS3DVec seg n) n (on_ellipsoid (elf e) (elrad e)).
Proof.
  intros F RX RY RZ. destruct (ellips_net e sl) as (n & E & N0 & N1 & K0 & K1 & HW & HC). exists n. split; [exact E|]. fold halfKnots in K1.
  assert (G : good_nurbs n). { unfold good_nurbs. rewrite K0, K1, N0, N1. split; [apply good_circle|apply good_half]. }
  split; [exact G|]. rewrite <- N0, <- N1 in HW, HC. set (rx := vx (elrad e)) in *. set (ry := vy (elrad e)) in *. set (rz := vz (elrad e)) in *.
  assert (HC' : forall i j, (i < nu_n0 n)%nat -> (j < nu_n1 n)%nat -> zNURBS3DCP n i j = vadd (fpos (elf e)) (vadd (vadd (vscale (sqx i * ha j) (vscale rx (bx (fatt (elf e))))) (vscale (sqy i * ha j) (vscale ry (by_ (fatt (elf e)))))) (vscale (1 * hb j) (vscale rz (bz (fatt (elf e))))))).
  { intros i j I J. rewrite HC by assumption. fold (ha j) (hb j). apply vec3_ext; spec_unfold; ring. }
  clear HC. split.
  - intros u v D. destruct (product_vec seg n u v arcWeight arcWeight _ _ _ _ sqx ha sqy ha (fun _ => 1) hb F G D HW HC') as (su & sv & A0 & A1 & S0 & S1 & V). cbv zeta in V.
    rewrite !(su_arcs n _ _ u su _ K0), !(sv_arcs n _ _ v sv _ K1) in V. rewrite K0 in A0. rewrite K1 in A1. rewrite N0 in S0. rewrite N1 in S1. cbn [bs_order] in A0, A1.
    destruct (circle_on sl u su A0 S0) as [U1 U2]. destruct (half_on sl v sv A1 S1) as [V1 V2]. specialize (V U1 V1). eexists. split; [exact V|].
    set (Wu := arcs ellipsKnots sl u su (fun _ => 1)) in *. set (Wv := arcs halfKnots sl v sv (fun _ => 1)) in *. set (cu := arcs ellipsKnots sl u su sqx) in *. set (du := arcs ellipsKnots sl u su sqy) in *.
    set (cv := arcs halfKnots sl v sv ha) in *. set (dv := arcs halfKnots sl v sv hb) in *. clearbody Wu Wv cu du cv dv.
    exists (V3 (rx * (cu / Wu * (cv / Wv))) (ry * (du / Wu * (cv / Wv))) (rz * (dv / Wv))). cbn [vx vy vz]. fold rx ry rz. split.
    + replace (rx * (cu / Wu * (cv / Wv)) / rx) with (cu / Wu * (cv / Wv)) by (field; lra). replace (ry * (du / Wu * (cv / Wv)) / ry) with (du / Wu * (cv / Wv)) by (field; lra). replace (rz * (dv / Wv) / rz) with (dv / Wv) by (field; lra).
      transitivity ((cu * cu + du * du) / (Wu * Wu) * (cv * cv) / (Wv * Wv) + dv * dv / (Wv * Wv)); [field; lra|]. rewrite U2. transitivity ((cv * cv + dv * dv) / (Wv * Wv)); [field; lra|]. rewrite V2. field. lra.
    + rewrite bxyz. apply vec3_ext; spec_unfold; field; lra.
  - intros p (q & Q & ->). fold rx ry rz in Q. set (x := vx q / rx) in *. set (y := vy q / ry) in *. set (z := vz q / rz) in *.
    set (r := sqrt (x * x + y * y)). assert (RR : r * r = x * x + y * y) by (apply sqrt_sqrt; nra). assert (R0 : 0 <= r) by apply sqrt_pos.
    destruct (half_all sl r z R0 ltac:(lra)) as (v & HV & TV).
    assert (CD : exists c d, c * c + d * d = 1 /\ x = r * c /\ y = r * d).
    { destruct (Req_dec r 0) as [Z|Z]; [exists 1, 0; assert (x = 0 /\ y = 0) as [-> ->] by (rewrite Z in RR; split; nra); rewrite Z; repeat split; ring|].
      exists (x / r), (y / r). repeat split; try (field; assumption). transitivity ((x * x + y * y) / (r * r)); [field; assumption|]. rewrite <- RR. field. assumption. }
    destruct CD as (c & d & CD & EX & EY). destruct (circle_all sl c d CD) as (u & HU & TU). exists u, v.
    assert (D : in_params n u v). { unfold in_params. rewrite K0, K1, N0, N1. unfold in_domain, knot_of, ellipsKnots, halfKnots. cbn [bs_order bs_knot nth]. split; lra. }
    split; [exact D|]. destruct (product_vec seg n u v arcWeight arcWeight _ _ _ _ sqx ha sqy ha (fun _ => 1) hb F G D HW HC') as (su & sv & A0 & A1 & S0 & S1 & V). cbv zeta in V.
    rewrite !(su_arcs n _ _ u su _ K0), !(sv_arcs n _ _ v sv _ K1) in V. rewrite K0 in A0. rewrite K1 in A1. rewrite N0 in S0. rewrite N1 in S1. cbn [bs_order] in A0, A1.
    destruct (circle_on sl u su A0 S0) as [U1 U2]. destruct (half_on sl v sv A1 S1) as [V1 V2]. specialize (V U1 V1). rewrite V. destruct (TU su A0 S0) as [T1 T2]. destruct (TV sv A1 S1) as [T3 T4].
    rewrite T1, T2, T3, T4. do 2 f_equal. rewrite bxyz. set (Wu := arcs ellipsKnots sl u su (fun _ => 1)) in *. set (Wv := arcs halfKnots sl v sv (fun _ => 1)) in *. clearbody Wu Wv.
    replace (vx q) with (rx * (r * c)) by (rewrite <- EX; unfold x; field; lra). replace (vy q) with (ry * (r * d)) by (rewrite <- EY; unfold y; field; lra). replace (vz q) with (rz * z) by (unfold z; field; lra).
    apply vec3_ext; spec_unfold; field; lra.
Qed.

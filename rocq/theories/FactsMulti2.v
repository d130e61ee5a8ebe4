(** Facts about sets of shapes, continued: the inside test with margin zero. *)
From Verif Require Import Base Spec SpecShape SpecMulti ModelMulti FactsVec FactsAlg FactsElem FactsRound FactsCone FactsEllips FactsSolid FactsObb FactsPH4 FactsMulti.
From Coq Require Import List Lia Lra.
Import ListNotations.
Open Scope R_scope.

Lemma local_coords f q : isometry (fatt f) -> exists u, q = act f u.
Proof. intros H. exists (zXform3DInv f q). symmetry. apply iso_act_inv, H. Qed.
Lemma local_unique f u v : isometry (fatt f) -> act f u = act f v -> u = v.
Proof. intros H E. rewrite <- (iso_inv_act f u H), <- (iso_inv_act f v H), E. reflexivity. Qed.
Lemma grow_act f u k : vadd (fpos f) (vscale (1 + k) (vsub (act f u) (fpos f))) = act f (vscale (1 + k) u).
Proof. unfold act. vring. Qed.
Lemma split_same c0 a h w h' w' : dot a a = 1 -> dot a w = 0 -> dot a w' = 0 ->
  vadd (vadd c0 (vscale h a)) w = vadd (vadd c0 (vscale h' a)) w' -> h = h' /\ w = w'.
Proof.
  intros A W W' E. assert (E' : vadd (vscale h a) w = vadd (vscale h' a) w').
  { apply vec3_ext; [apply (f_equal vx) in E|apply (f_equal vy) in E|apply (f_equal vz) in E]; revert E; spec_unfold; lra. }
  assert (h = h').
  { assert (K : dot a (vadd (vscale h a) w) = dot a (vadd (vscale h' a) w')) by (rewrite E'; reflexivity).
    replace (dot a (vadd (vscale h a) w)) with (h * dot a a + dot a w) in K by (spec_unfold; ring).
    replace (dot a (vadd (vscale h' a) w')) with (h' * dot a a + dot a w') in K by (spec_unfold; ring). rewrite A, W, W' in K. lra. }
  subst h'. split; [reflexivity|]. apply vec3_ext; [apply (f_equal vx) in E'|apply (f_equal vy) in E'|apply (f_equal vz) in E']; revert E'; spec_unfold; lra.
Qed.
Lemma in_cyl_split c0 c1 r l a h w : 0 < l -> dot a a = 1 -> vsub c1 c0 = vscale l a -> dot a w = 0 ->
  in_cyl c0 c1 r (vadd (vadd c0 (vscale h a)) w) <-> 0 <= h <= l /\ norm w <= r.
Proof.
  intros Hl A E W. unfold in_cyl. rewrite E. split.
  - intros (t & w' & T & D & N & P). assert (D' : dot a w' = 0). { apply (Rmult_eq_reg_l l); [|lra]. rewrite Rmult_0_r, <- D. spec_unfold; ring. }
    replace (vscale t (vscale l a)) with (vscale (t * l) a) in P by (apply vec3_ext; spec_unfold; ring).
    destruct (split_same _ _ _ _ _ _ A W D' P) as (-> & ->). split; [nra|exact N].
  - intros (H & N). exists (h / l), w. split; [|split; [|split; [exact N|]]].
    + split; [apply Rmult_le_pos; [lra|]; left; apply Rinv_0_lt_compat; lra|]. apply (Rmult_le_reg_r l); [lra|]. unfold Rdiv. rewrite Rmult_assoc, Rinv_l by lra. lra.
    + transitivity (l * dot a w); [spec_unfold; ring|rewrite W; ring].
    + replace (vscale (h / l) (vscale l a)) with (vscale h a); [reflexivity|]. apply vec3_ext; spec_unfold; field; lra.
Qed.
Lemma in_cone_split c0 c1 r l a h w : 0 < l -> dot a a = 1 -> vsub c1 c0 = vscale l a -> dot a w = 0 ->
  in_cone c0 c1 r (vadd (vadd c0 (vscale h a)) w) <-> 0 <= h <= l /\ norm w * l <= r * (l - h).
Proof.
  intros Hl A E W. unfold in_cone. rewrite E. split.
  - intros (t & w' & T & D & N & P). assert (D' : dot a w' = 0). { apply (Rmult_eq_reg_l l); [|lra]. rewrite Rmult_0_r, <- D. spec_unfold; ring. }
    replace (vscale t (vscale l a)) with (vscale (t * l) a) in P by (apply vec3_ext; spec_unfold; ring).
    destruct (split_same _ _ _ _ _ _ A W D' P) as (-> & ->). split; [nra|]. replace (r * (l - t * l)) with ((1 - t) * r * l) by ring. apply Rmult_le_compat_r; lra.
  - intros (H & N). exists (h / l), w. assert (K : h / l * l = h) by (field; lra). split; [|split; [|split]].
    + split; apply (Rmult_le_reg_r l); lra.
    + transitivity (l * dot a w); [spec_unfold; ring|rewrite W; ring].
    + apply (Rmult_le_reg_r l); [lra|]. replace ((1 - h / l) * r * l) with (r * (l - h / l * l)) by ring. rewrite K. exact N.
    + replace (vscale (h / l) (vscale l a)) with (vscale h a); [reflexivity|]. apply vec3_ext; spec_unfold; field; lra.
Qed.
Lemma grow_split c0 a h w l k :
  vadd (vadd c0 (vscale (l / 2) a)) (vscale (1 + k) (vsub (vadd (vadd c0 (vscale h a)) w) (vadd c0 (vscale (l / 2) a)))) =
  vadd (vadd c0 (vscale (l / 2 + (1 + k) * (h - l / 2)) a)) (vscale (1 + k) w).
Proof. apply vec3_ext; spec_unfold; lra. Qed.

Lemma box_inside0 b p : SpecBox.solid b -> (zBox3DPointIsInside b p 0 = true -> in_obb b p) /\ (inner_point (in_obb b) p -> zBox3DPointIsInside b p 0 = true).
Proof.
  intros (I & X & Y & Z). rewrite (obb_inside b p 0 I). split.
  - intros (u & A & B & C & E). exists u. repeat split; try lra. exact E.
  - intros H. destruct (local_coords (bframe b) p I) as (u & ->). destruct (inner_grow _ _ (fpos (bframe b)) H) as (k & K & (v & A & B & C & E)).
    rewrite grow_act in E. apply local_unique in E; [|exact I]. subst v. cbn [vx vy vz vscale] in *. exists u.
    repeat split; rewrite Rplus_0_r; eapply frac_lt; try exact K; try lra; assumption.
Qed.
Lemma sphere_inside0 s p : 0 < srad s -> (zSphere3DPointIsInside s p 0 = true -> ball (scen s) (srad s) p) /\ (inner_point (ball (scen s) (srad s)) p -> zSphere3DPointIsInside s p 0 = true).
Proof.
  intros P. rewrite (sphere_inside s p 0), Rplus_0_r. unfold ball. split; [lra|]. intros H. destruct (inner_grow _ _ (scen s) H) as (k & K & D).
  unfold dist in *. replace (vsub (scen s) (vadd (scen s) (vscale (1 + k) (vsub p (scen s))))) with (vscale (1 + k) (vsub (scen s) p)) in D by (apply vec3_ext; spec_unfold; ring).
  rewrite norm_scale, Rabs_right in D by lra. pose proof (norm_nonneg (vsub (scen s) p)). nra.
Qed.
Lemma ellips_inside0 e p : isometry (fatt (elf e)) -> 0 < vx (elrad e) -> 0 < vy (elrad e) -> 0 < vz (elrad e) ->
  (zEllips3DPointIsInside e p 0 = true -> in_ellipsoid (elf e) (elrad e) p) /\ (inner_point (in_ellipsoid (elf e) (elrad e)) p -> zEllips3DPointIsInside e p 0 = true).
Proof.
  intros I X Y Z. rewrite (ellips3_inside e p 0 I). replace (vadd (elrad e) (V3 0 0 0)) with (elrad e) by (apply vec3_ext; cbn [vadd vx vy vz]; ring). split.
  - intros (q & A & E). exists q. split; [lra|exact E].
  - intros H. destruct (local_coords (elf e) p I) as (u & ->). destruct (inner_grow _ _ (fpos (elf e)) H) as (k & K & (v & A & E)).
    rewrite grow_act in E. apply local_unique in E; [|exact I]. subst v. cbn [vx vy vz vscale] in *. exists u. split; [|reflexivity].
    replace ((1 + k) * vx u / vx (elrad e)) with ((1 + k) * (vx u / vx (elrad e))) in A by (field; lra).
    replace ((1 + k) * vy u / vy (elrad e)) with ((1 + k) * (vy u / vy (elrad e))) in A by (field; lra).
    replace ((1 + k) * vz u / vz (elrad e)) with ((1 + k) * (vz u / vz (elrad e))) in A by (field; lra).
    set (x := vx u / _) in *. set (y := vy u / _) in *. set (z := vz u / _) in *. nra.
Qed.
Lemma cyl_inside0 c p : ~ negligible (vsub (cc1 c) (cc0 c)) -> 0 < crad c ->
  (zCyl3DPointIsInside c p 0 = true -> in_cyl (cc0 c) (cc1 c) (crad c) p) /\ (inner_point (in_cyl (cc0 c) (cc1 c) (crad c)) p -> zCyl3DPointIsInside c p 0 = true).
Proof.
  intros N P. destruct (axis_split (cc0 c) (cc1 c) p N) as (a & h & w & EN & Hl & Ua & Ea & Ow & Eh & Nw & Ew & Ep).
  assert (AX : axial (cc0 c) (cc1 c) p h w) by (apply (axial_unique _ _ a h w p Hl Ua Ea Ow Ep); auto).
  rewrite (cyl_inside c p 0 N h w AX). set (l := norm (vsub (cc1 c) (cc0 c))) in *. split.
  - intros (A & B). rewrite Ep. apply (in_cyl_split _ _ _ l a); auto. lra.
  - intros H. destruct (inner_grow _ _ (vadd (cc0 c) (vscale (l / 2) a)) H) as (k & K & G). rewrite Ep, grow_split in G.
    apply (in_cyl_split _ _ _ l a) in G; auto; [|transitivity ((1 + k) * dot a w); [spec_unfold; ring|rewrite Ow; ring]].
    destruct G as (G1 & G2). rewrite norm_scale, Rabs_right in G2 by lra. pose proof (norm_nonneg w). assert (0 < k * l) by (apply Rmult_lt_0_compat; lra). split; [nra|]. split; apply (Rmult_lt_reg_l (1 + k)); try lra.
Qed.
Lemma cone_inside0 c p : ~ negligible (vsub (kvert c) (kcen c)) -> 0 < krad c ->
  exists b, zCone3DPointIsInside c p 0 = Some b /\ (b = true -> in_cone (kcen c) (kvert c) (krad c) p) /\ (inner_point (in_cone (kcen c) (kvert c) (krad c)) p -> b = true).
Proof.
  intros N P. destruct (axis_split (kcen c) (kvert c) p N) as (a & h & w & EN & Hl & Ua & Ea & Ow & Eh & Nw & Ew & Ep).
  assert (AX : axial (kcen c) (kvert c) p h w) by (apply (axial_unique _ _ a h w p Hl Ua Ea Ow Ep); auto).
  destruct (cone_inside c p 0 h w N AX) as (b & E & B). cbv zeta in B. exists b. split; [exact E|]. rewrite B. set (l := norm (vsub (kvert c) (kcen c))) in *. split.
  - intros (A & C). rewrite Ep. apply (in_cone_split _ _ _ l a); auto. lra.
  - intros H. destruct (inner_grow _ _ (vadd (kcen c) (vscale (l / 2) a)) H) as (k & K & G). rewrite Ep, grow_split in G.
    apply (in_cone_split _ _ _ l a) in G; auto; [|transitivity ((1 + k) * dot a w); [spec_unfold; ring|rewrite Ow; ring]].
    destruct G as (G1 & G2). rewrite norm_scale, Rabs_right in G2 by lra. pose proof (norm_nonneg w). assert (0 < k * l) by (apply Rmult_lt_0_compat; lra). split; [split; apply (Rmult_lt_reg_l (1 + k)); lra|].
    rewrite Rmult_0_l. apply (Rmult_lt_reg_l (1 + k)); [lra|]. rewrite Rmult_0_r. assert (0 < krad c * l * k) by (repeat apply Rmult_lt_0_compat; lra). lra.
Qed.
Lemma ph_inside0 ph p : sound_ph ph -> (exists y, forall t, List.In t (solid_tris ph) -> FactsPH4.height t y < 0) ->
  exists b, zPH3DPointIsInside ph p 0 = Some b /\ (b = true -> FactsPH4.solid ph p) /\ (inner_point (FactsPH4.solid ph) p -> b = true).
Proof.
  intros S (y & Hy). destruct (convex_inside ph p 0 S) as (b & E & B & _ & C). exists b. split; [exact E|]. split; [intros; apply C; [assumption|lra]|].
  intros H. destruct (inner_grow _ _ y H) as (k & K & G). apply B. intros t T. rewrite Rmult_0_l. specialize (G t T). specialize (Hy t T).
  assert (X : FactsPH4.height t (vadd y (vscale (1 + k) (vsub p y))) = (1 + k) * FactsPH4.height t p - k * FactsPH4.height t y) by (unfold FactsPH4.height; generalize (tri_normal (tv0 t) (tv1 t) (tv2 t)); intros n; spec_unfold; ring).
  rewrite X in G. nra.
Qed.
Lemma ecyl_inside0 c p : ~ negligible (vsub (ec1 c) (ec0 c)) -> 0 < er0 c -> 0 < er1 c -> radial_basis (vsub (ec1 c) (ec0 c)) (ev0 c) (ev1 c) ->
  let S := in_ecyl (ec0 c) (ec1 c) (er0 c) (er1 c) (ev0 c) (ev1 c) in
  exists b, zECyl3DPointIsInside c p 0 = Some b /\ (b = true -> S p) /\ (inner_point S p -> b = true).
Proof.
  intros N R0 R1 RB S. destruct (axis_split (ec0 c) (ec1 c) p N) as (a & h & w & EN & Hl & Ua & Ea & Ow & Eh & Nw & Ew & Ep).
  set (l := norm (vsub (ec1 c) (ec0 c))) in *. assert (RB' := RB). rewrite Ea in RB'. apply basis_scale in RB'; [|lra]. destruct RB' as (B0 & B1 & B01 & Ba0 & Ba1).
  set (u0 := ev0 c) in *. set (u1 := ev1 c) in *.
  (* the three directions are an orthonormal basis *)
  assert (IS : isometry (cols3 u0 u1 a)). { apply iso_cols; auto; rewrite dot_comm; assumption. }
  assert (EX : forall v, v = vadd (vadd (vscale (dot u0 v) u0) (vscale (dot u1 v) u1)) (vscale (dot a v) a)).
  { intros v. rewrite <- (iso_inv_r _ v IS) at 1. rewrite mvec_cols. clearbody u0 u1 l. clear. apply vec3_ext; spec_unfold; ring. }
  set (x := dot u0 w). set (y := dot u1 w).
  assert (Pc : p = vadd (vadd (vadd (ec0 c) (vscale h a)) (vscale x u0)) (vscale y u1)).
  { rewrite Ep at 1. rewrite (EX w) at 1. rewrite Ow. fold x y. clearbody x y u0 u1. clear. apply vec3_ext; spec_unfold; ring. }
  destruct (ecyl_inside c p 0 l a h x y N eq_refl Ea RB Pc) as (b & E & B). exists b. split; [exact E|]. rewrite B, !Rplus_0_r.
  assert (MEM : forall h x y, S (vadd (vadd (vadd (ec0 c) (vscale h a)) (vscale x u0)) (vscale y u1)) <-> 0 <= h <= l /\ x / er0 c * (x / er0 c) + y / er1 c * (y / er1 c) <= 1).
  { clear h w Ow Eh Nw Ew Ep x y Pc B. intros h x y. unfold S, in_ecyl. fold u0 u1. rewrite Ea. split.
    - intros (t & a' & b' & T & Q & P). assert (K : forall d, dot d (vsub (vadd (vadd (vadd (ec0 c) (vscale h a)) (vscale x u0)) (vscale y u1)) (ec0 c)) = dot d (vsub (vadd (vadd (vadd (ec0 c) (vscale t (vscale l a))) (vscale a' u0)) (vscale b' u1)) (ec0 c))) by (intros; rewrite P; reflexivity).
      assert (L : forall d h x y, dot d (vsub (vadd (vadd (vadd (ec0 c) (vscale h a)) (vscale x u0)) (vscale y u1)) (ec0 c)) = h * dot a d + x * dot u0 d + y * dot u1 d) by (intros; clearbody u0 u1 l; clear; spec_unfold; ring).
      replace (vscale t (vscale l a)) with (vscale (t * l) a) in K by (apply vec3_ext; spec_unfold; ring).
      pose proof (K a) as Ka. pose proof (K u0) as K0. pose proof (K u1) as K1. rewrite !L in Ka, K0, K1. rewrite (dot_comm u0 a), (dot_comm u1 a), (dot_comm u1 u0), ?Ua, ?B0, ?B1, ?B01, ?Ba0, ?Ba1 in *.
      assert (h = t * l) by lra. assert (x = a') by lra. assert (y = b') by lra. subst. split; [nra|exact Q].
    - intros (H & Q). exists (h / l), x, y. assert (K : h / l * l = h) by (field; lra). split; [split; apply (Rmult_le_reg_r l); lra|]. split; [exact Q|].
      replace (vscale (h / l) (vscale l a)) with (vscale h a); [reflexivity|]. clearbody u0 u1 l. apply vec3_ext; spec_unfold; field; lra. }
  unfold inside_ellipse. cbn [x2 y2]. split.
  - intros (A & C). rewrite Pc. apply MEM. split; [lra|]. rewrite !Rminus_0_r in C. lra.
  - intros H. destruct (inner_grow _ _ (vadd (ec0 c) (vscale (l / 2) a)) H) as (k & K & G).
    replace (vadd (vadd (ec0 c) (vscale (l / 2) a)) (vscale (1 + k) (vsub p (vadd (ec0 c) (vscale (l / 2) a))))) with
      (vadd (vadd (vadd (ec0 c) (vscale (l / 2 + (1 + k) * (h - l / 2)) a)) (vscale ((1 + k) * x) u0)) (vscale ((1 + k) * y) u1)) in G
      by (rewrite Pc; clearbody u0 u1 l x y; clear; apply vec3_ext; spec_unfold; lra).
    apply MEM in G. destruct G as (G1 & G2). assert (0 < k * l) by (apply Rmult_lt_0_compat; lra). split; [split; apply (Rmult_lt_reg_l (1 + k)); lra|]. rewrite !Rminus_0_r.
    replace ((1 + k) * x / er0 c) with ((1 + k) * (x / er0 c)) in G2 by (field; lra). replace ((1 + k) * y / er1 c) with ((1 + k) * (y / er1 c)) in G2 by (field; lra).
    set (X := x / _) in *. set (Y := y / _) in *. nra.
Qed.
Lemma member_inside s p : inside_ok s -> exists b, zShape3DPointIsInside s p 0 = Some b /\ (b = true -> shape_solid s p) /\ (inner_point (shape_solid s) p -> b = true).
Proof.
  destruct s as [b|s|e|c|c|c|c|ph]; cbn [inside_ok zShape3DPointIsInside shape_solid].
  - intros H. eexists. split; [reflexivity|]. apply box_inside0, H.
  - intros H. eexists. split; [reflexivity|]. apply sphere_inside0, H.
  - intros (A & B & C & D). eexists. split; [reflexivity|]. apply ellips_inside0; assumption.
  - intros (A & B). eexists. split; [reflexivity|]. apply cyl_inside0; assumption.
  - intros (A & B & C & D). apply ecyl_inside0; assumption.
  - intros [].
  - intros (A & B). apply cone_inside0; assumption.
  - intros (A & B). apply ph_inside0; assumption.
Qed.
Lemma multi_inside0 ms p : Forall inside_ok ms -> exists b, zMultiShape3DPointIsInside ms p 0 = Some b /\
  (b = true -> union (map shape_solid ms) p) /\ (union (map (fun s => inner_point (shape_solid s)) ms) p -> b = true).
Proof.
  intros OK. rewrite Forall_forall in OK. destruct (multi_inside ms p 0) as (b & E & B).
  { intros s I. destruct (member_inside s p (OK s I)) as (b & -> & _). discriminate. }
  exists b. split; [exact E|]. rewrite B. split.
  - intros (s & I & C). apply union_solid. exists s. split; [exact I|]. destruct (member_inside s p (OK s I)) as (b' & E' & H & _). apply H. congruence.
  - intros (S & I & H). apply in_map_iff in I as (s & <- & I). exists s. split; [exact I|]. destruct (member_inside s p (OK s I)) as (b' & -> & _ & K). rewrite K by exact H. reflexivity.
Qed.

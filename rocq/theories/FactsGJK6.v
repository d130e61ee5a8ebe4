(** One point against a set; containers; the Minkowski portal; collecting differences *)
From Verif Require Export FactsGJK5 FactsData FactsData2 SpecData.
From Coq Require Import List Lia.
Import ListNotations.
Open Scope R_scope.

(** * A set and a point *)
Lemma point_loop l p : forall fuel s v dv, gjkPointLoop fuel l p s v dv = gjkLoop fuel l [p] s v dv.
Proof.
  induction fuel as [|fuel IH]; intros s v dv; [reflexivity|]. cbn [gjkPointLoop gjkLoop]. unfold gjkPointSupportMap, gjkSupportMap. cbn [supportMap fold_left fst].
  destruct (supportMap l (zVec3DRev v)) as [p1|]; [|reflexivity]. destruct (_ || _)%bool; [reflexivity|]. destruct (simplexClosest _) as [[s' v']|]; [|reflexivity]. destruct (Nat.ltb _ _); [apply IH|reflexivity].
Qed.
Lemma point_closest : forall l a b, gjkPointClosest l a = match gjkPair l a b with Some (c, _) => Some c | None => None end.
Proof. induction l as [|sl l IH]; intros a b; cbn [gjkPointClosest gjkPair]; [reflexivity|]. destruct (sw_w sl); [|apply IH]. destruct (sl_p sl) as [[p1 p2]|]; [|reflexivity]. apply IH. Qed.
Lemma gjk_point fuel old l p : zGJKPoint fuel old l p = match zGJK fuel old l [p] with Some (c, _, hit) => Some (c, hit) | None => None end.
Proof.
  unfold zGJKPoint, zGJK. destruct l as [|a l]; [reflexivity|]. rewrite point_loop. destruct (gjkLoop _ _ _ _ _ _) as [| |s v]; [reflexivity|reflexivity|].
  rewrite (point_closest _ v3zero v3zero). destruct (gjkPair _ _ _) as [[c1 c2]|]; reflexivity.
Qed.
Lemma hull_one p q : convex_hull [p] q -> q = p.
Proof.
  intros H. induction H as [x [->|[]]|a b x A IA B IB (s0 & s1 & (W0 & W1 & WS) & ->)]; [reflexivity|]. subst a b. unfold comb2. replace s1 with (1 - s0) by lra. apply vec3_ext; spec_unfold; ring.
Qed.
Lemma gjk_point_pair fuel old l p c hit : sturdy l [p] -> zGJKPoint fuel old l p = Some (c, hit) -> exists q, convex_hull l q /\ (forall x, convex_hull l x -> dist q p * dist q p <= dist x p * dist x p + 2 * zTOL) /\
  (forall b, within b l -> dist c q <= 3 * zTOL * b) /\ (clear_weights l [p] -> c = q).
Proof.
  intros ST E. rewrite gjk_point in E. destruct (zGJK fuel old l [p]) as [[[c1 c2] h]|] eqn:Z; [|discriminate]. injection E as -> ->.
  destruct (gjk_pair fuel old l [p] c c2 hit ST Z) as (q1 & q2 & (H1 & H2 & M) & B1 & _ & CW). apply hull_one in H2. subst q2. exists q1. split; [exact H1|]. split; [|split; [exact B1|intros X; apply CW; exact X]].
  intros x X. apply M; [exact X|]. constructor. left. reflexivity.
Qed.
Lemma gjk_point_ends old l p : l <> [] -> sturdy l [p] -> clear_weights l [p] \/ compact_pair l [p] -> exists n c hit, forall fuel, (n <= fuel)%nat -> zGJKPoint fuel old l p = Some (c, hit).
Proof.
  intros N ST H. destruct (gjk_ends old l [p] N ltac:(discriminate) ST H) as (n & c1 & c2 & hit & E). exists n, c1, hit. intros fuel L. rewrite gjk_point, E by exact L. reflexivity.
Qed.
(** * Single points *)
Lemma gjk_single old a b fuel : (2 <= fuel)%nat -> zGJK fuel old [a] [b] = Some (a, b, zVec3DEqual (vsub a b) v3zero).
Proof.
  intros L. destruct fuel as [|[|fuel]]; try lia. pose proof tol_small as TS. unfold zGJK. zvg.
  assert (SU : forall v, gjkSupportMap [a] [b] v = Some (a, b, vsub a b)) by (intros v; unfold gjkSupportMap; cbn [supportMap fold_left fst]; zvg; reflexivity).
  rewrite (loop_next (S fuel) [a] [b] simplexInit _ None a b (vsub a b) (SX 1 [SL true true (vsub a b) (Some (a, b)) 1; slotInit; slotInit; slotInit]) (vsub a b)); [|apply SU|reflexivity|left; reflexivity| |reflexivity].
  2: { unfold simplexClosest. cbn. unfold minimizeSlot. cbn [sl_s]. tiny. reflexivity. }
  rewrite (loop_dup fuel [a] [b] _ _ _ a b (vsub a b)); [|apply SU|].
  2: { unfold checkDupSlot. cbn [sx_slot existsb sw_y sl_w]. replace (zVec3DMatch (vsub a b) (vsub a b)) with true by (symmetry; apply match_eq; reflexivity). reflexivity. }
  cbn [gjkPair sx_slot sw_w sl_p sl_s gjkCheck sx_n nth sl_w slotInit]. zvg. f_equal. f_equal. f_equal; apply vec3_ext; spec_unfold; ring.
Qed.
(** * Containers *)
Lemma container_support d l dir : user_data d -> (exists d', zVecXDDataToAddrList d = Some (d', l)) -> l <> [] -> exists d', zVec3DDataSupportMap d dir = Some (d', supportMap l dir).
Proof.
  intros U E NE. destruct (data_of d l U E) as [W C]. unfold zVec3DDataSupportMap, zVecXDDataSupportMap. rewrite empty_spec by exact W. rewrite C. destruct l as [|a t]; [congruence|].
  destruct (rewind_spec d W) as (W1 & C1 & P1 & M1). destruct (fetch_spec _ W1) as (V2 & W2 & C2 & P2 & M2). destruct (zVecXDDataFetch (zVecXDDataRewind d)) as [d2 p]. cbn [fst snd] in *.
  rewrite C1, P1, C in *. cbn [first cur nth_error] in V2. subst p. cbn [first advance] in P2.
  assert (R2 : rest d2 = t). { unfold rest. rewrite P2, C2. destruct t as [|b t']; reflexivity. }
  destruct (while_spec (fun s v => inl (if Rltb (snd s) (zVec3DInnerProd v dir) then (v, zVec3DInnerProd v dir) else s)) (fuel_of d) d2 (a, zVec3DInnerProd a dir) W2) as (d' & E' & _).
  { rewrite R2. unfold fuel_of. rewrite size_spec, C by exact W. cbn. lia. }
  rewrite E', R2, (fold_brk_fold (fun s v => if Rltb (snd s) (zVec3DInnerProd v dir) then (v, zVec3DInnerProd v dir) else s)). exists d'. unfold supportMap. destruct (fold_left _ t (a, zVec3DInnerProd a dir)) as [sp x]. reflexivity.
Qed.
(** * Minkowski portal *)
Lemma normalize_unit v n : normalizeNC v = Some n -> norm n = 1.
Proof.
  unfold normalizeNC. zvg. destruct (Reqb_reflect (norm v) 0) as [|N]; [discriminate|]. intros E. injection E as <-. unfold zVec3DNormalizeNC. cbn [snd]. zvg.
  rewrite norm_scale, Rabs_right; [field; exact N|]. apply Rle_ge, Rmult_le_pos; [lra|]. left. apply Rinv_0_lt_compat. pose proof (norm_nonneg v). lra.
Qed.
Lemma mpr_support l1 l2 n s : mprSupportMap l1 l2 n = Some s -> forall x, difference l1 l2 x -> dot x n <= dot (ms_v s) n.
Proof.
  unfold mprSupportMap. zvg. intros E x (a & b & Ha & Hb & ->). assert (N1 : l1 <> []) by (intros ->; destruct Ha). assert (N2 : l2 <> []) by (intros ->; destruct Hb).
  destruct (support_ok l1 n N1) as (p1 & E1 & _ & M1). destruct (support_ok l2 (vneg n) N2) as (p2 & E2 & _ & M2). rewrite E1, E2 in E. injection E as <-. cbn [ms_v]. zvg.
  specialize (M1 a Ha). specialize (M2 b Hb). replace (dot (vsub a b) n) with (dot a n + dot b (vneg n)) by (clear; spec_unfold; ring). replace (dot (vsub p1 p2) n) with (dot p1 n + dot p2 (vneg n)) by (clear; spec_unfold; ring). lra.
Qed.
Definition apart (l1 l2 : list vec3) (e : R) : Prop := exists n, norm n = 1 /\ forall x, difference l1 l2 x -> dot x n < e.
Lemma neg_unit n : norm n = 1 -> norm (vneg n) = 1.
Proof. intros H. replace (vneg n) with (vscale (-1) n) by (apply vec3_ext; spec_unfold; ring). rewrite norm_scale, H, Rabs_left; lra. Qed.
Lemma portal_loop l1 l2 : forall fuel s0 s1 s2 dir, norm dir = 1 -> mprPortalLoop fuel l1 l2 s0 s1 s2 dir = Outside -> apart l1 l2 zTOL.
Proof.
  induction fuel as [|fuel IH]; intros s0 s1 s2 dir U E; [discriminate|]. cbn [mprPortalLoop] in E. destruct (mprSupportMap l1 l2 dir) as [s3|] eqn:ES; [|discriminate].
  revert E. zvg. destruct (Rltb_reflect (dot (ms_v s3) dir) zTOL) as [L|L].
  - intros _. exists dir. split; [exact U|]. intros x Hx. pose proof (mpr_support _ _ _ _ ES x Hx). lra.
  - destruct (Rleb _ _).
    + destruct (mprSimplexDir s0 s1 s3) as [d|] eqn:ED; [|discriminate]. apply IH. exact (normalize_unit _ _ ED).
    + destruct (Rleb _ _); [|discriminate]. destruct (mprSimplexDir s0 s3 s2) as [d|] eqn:ED; [|discriminate]. apply IH. exact (normalize_unit _ _ ED).
Qed.
Lemma find_portal l1 l2 fuel : mprFindPortal fuel l1 l2 = Outside -> apart l1 l2 zTOL.
Proof.
  unfold mprFindPortal. destruct (mprOrigin l1 l2) as [s0'|]; [|discriminate]. cbv zeta. match goal with |- context [if zVec3DIsTiny (ms_v s0') then ?a else ?b] => generalize (if zVec3DIsTiny (ms_v s0') then a else b) end. intros s0.
  destruct (normalizeNC (zVec3DRev (ms_v s0))) as [dir|] eqn:E0; [|discriminate]. destruct (mprSupportMap l1 l2 dir) as [s1|] eqn:E1; [|discriminate]. zvg.
  destruct (Rltb_reflect (dot (ms_v s1) dir) zTOL) as [L|_]; [intros _; exists dir; split; [exact (normalize_unit _ _ E0)|]; intros x Hx; pose proof (mpr_support _ _ _ _ E1 x Hx); lra|].
  destruct (zVec3DIsTiny (cross (ms_v s1) (ms_v s0))); [destruct (zVec3DIsTiny (ms_v s1)); discriminate|].
  destruct (normalizeNC (cross (ms_v s1) (ms_v s0))) as [dir2|] eqn:E2; [|discriminate]. destruct (mprSupportMap l1 l2 dir2) as [s2|] eqn:E3; [|discriminate]. zvg.
  destruct (Rltb_reflect (dot (ms_v s2) dir2) zTOL) as [L|_]; [intros _; exists dir2; split; [exact (normalize_unit _ _ E2)|]; intros x Hx; pose proof (mpr_support _ _ _ _ E3 x Hx); lra|].
  destruct (mprSimplexDir s0 s1 s2) as [dir3|] eqn:E4; [|discriminate]. pose proof (normalize_unit _ _ E4) as U. zvg. destruct (Rltb _ _).
  - apply portal_loop. apply neg_unit. exact U.
  - apply portal_loop. exact U.
Qed.
Lemma refine_false l1 l2 : forall fuel s0 s1 s2 s3, mprRefine fuel l1 l2 s0 s1 s2 s3 = Some false -> apart l1 l2 0.
Proof.
  induction fuel as [|fuel IH]; intros s0 s1 s2 s3; [discriminate|]. cbn [mprRefine]. destruct (mprSimplexDir s1 s2 s3) as [dir|] eqn:ED; [|discriminate]. pose proof (normalize_unit _ _ ED) as U. zvg.
  destruct (Rltb_reflect (- zTOL) (dot (ms_v s1) dir)) as [|L]; [discriminate|]. destruct (mprSupportMap l1 l2 dir) as [s|] eqn:ES; [|discriminate]. zvg. pose proof zTOL_pos as TP.
  destruct (Rleb_reflect (dot (ms_v s) dir) (- zTOL)) as [Q|Q]; cbn [orb].
  - intros _. exists dir. split; [exact U|]. intros x Hx. pose proof (mpr_support _ _ _ _ ES x Hx). lra.
  - unfold mprIsReached. zvg. destruct (Rltb_reflect (dot (ms_v s) dir - dot (ms_v s1) dir) zTOL) as [R1|R1]; cbn [andb].
    + destruct (_ && _)%bool; [intros _; exists dir; split; [exact U|]; intros x Hx; pose proof (mpr_support _ _ _ _ ES x Hx); lra|]. destruct (mprExpand s0 s1 s2 s3 s) as [[t1 t2] t3]. apply IH.
    + destruct (mprExpand s0 s1 s2 s3 s) as [[t1 t2] t3]. apply IH.
Qed.
Lemma mpr_false fuel l1 l2 : zMPR fuel l1 l2 = Some false -> exists n, norm n = 1 /\ forall x1 x2, convex_hull l1 x1 -> convex_hull l2 x2 -> dot (vsub x1 x2) n <= zTOL.
Proof.
  intros E. assert (A : apart l1 l2 zTOL).
  { unfold zMPR in E. destruct (mprFindPortal fuel l1 l2) as [|s0 s1 s2 s3|s1|s0 s1| |] eqn:F; try discriminate.
    - exact (find_portal _ _ _ F).
    - destruct (refine_false _ _ _ _ _ _ _ E) as (n & U & H). exists n. split; [exact U|]. intros x Hx. pose proof zTOL_pos. specialize (H x Hx). lra. }
  destruct A as (n & U & H). exists n. split; [exact U|]. intros x1 x2 X1 X2.
  assert (Q : - zTOL <= dot (vsub x1 x2) (vneg n)). { revert x1 x2 X1 X2. apply hull_difference. intros x Hx. specialize (H x Hx). replace (dot x (vneg n)) with (- dot x n) by (clear; spec_unfold; ring). lra. }
  replace (dot (vsub x1 x2) (vneg n)) with (- dot (vsub x1 x2) n) in Q by (clear; spec_unfold; ring). lra.
Qed.
(** * Collecting differences *)
Lemma while_end {S} (f : S -> vec3 -> S) : forall fuel (d : data vec3) s d' s', while_fetch fuel d s (fun s v => inl (f s v)) = Some (d', s') -> zVecXDDataFetch d' = (d', None).
Proof.
  induction fuel as [|fuel IH]; intros d s d' s' E; [discriminate|]. cbn [while_fetch] in E. unfold zVecXDDataFetch in E at 1. destruct (zVecXDDataPeek d) as [v|] eqn:P.
  - apply IH in E. exact E.
  - injection E as <- <-. unfold zVecXDDataFetch. rewrite P. reflexivity.
Qed.
Lemma adds_fold (g : vec3 -> vec3) : forall l (d : data vec3), fold_left (fun d v => fst (zVecXDDataAdd d (g v))) l d = fst (run_ops d (map OAdd (map g l))).
Proof. induction l as [|v l IH]; intros d; [reflexivity|]. cbn [fold_left map run_ops run_op]. rewrite IH. destruct (zVecXDDataAdd d (g v)) as [d1 b]. cbn [fst]. destruct (run_ops d1 _). reflexivity. Qed.
Lemma minkowski_collect d1 d2 a t l2 : user_data d1 -> user_data d2 -> (exists d', zVecXDDataToAddrList d1 = Some (d', a :: t)) -> (exists d', zVecXDDataToAddrList d2 = Some (d', l2)) ->
  exists d, minkowskiCollect d1 d2 = Some d /\ exists d', zVecXDDataToAddrList d = Some (d', map (fun b => vsub a b) l2).
Proof.
  intros U1 U2 E1 E2. destruct (data_of d1 _ U1 E1) as [W1 C1]. destruct (data_of d2 _ U2 E2) as [W2 C2].
  unfold minkowskiCollect. cbv zeta. set (n := (zVecXDDataSize d1 * zVecXDDataSize d2)%nat).
  destruct (while_all (fun d v2 => inl (fst (zVecXDDataAdd d (zVec3DSub a v2)))) d2 (zVecXDDataInitArray n) W2) as (d2' & EI & WI & CI & _).
  rewrite fold_brk_fold, adds_fold, C2 in EI. change (fun v => zVec3DSub a v) with (fun b => vsub a b) in EI. set (D := fst (run_ops (zVecXDDataInitArray n) (map OAdd (map (fun b => vsub a b) l2)))) in *.
  assert (N0 : forall v1, while_fetch (fuel_of d2) d2' D (fun d v2 => inl (fst (zVecXDDataAdd d (zVec3DSub v1 v2)))) = Some (d2', D)).
  { intros v1. unfold fuel_of. cbn [while_fetch]. rewrite (while_end _ _ _ _ _ _ EI). reflexivity. }
  destruct (while_all (fun s v1 => match s with None => inr None | Some (e2, d) => match while_fetch (fuel_of d2) e2 d (fun d v2 => inl (fst (zVecXDDataAdd d (zVec3DSub v1 v2)))) with Some (e2, d) => inl (Some (e2, d)) | None => inr None end end)
     d1 (Some (zVecXDDataRewind d2, zVecXDDataInitArray n)) W1) as (d1' & EO & _).
  rewrite EO, C1. cbn [fold_brk]. rewrite EI.
  assert (FB : forall t, fold_brk (fun s v1 => match s with None => inr None | Some (e2, d) => match while_fetch (fuel_of d2) e2 d (fun d v2 => inl (fst (zVecXDDataAdd d (zVec3DSub v1 v2)))) with Some (e2, d) => inl (Some (e2, d)) | None => inr None end end) (Some (d2', D)) t = Some (d2', D)).
  { clear - N0. induction t as [|v t IH]; [reflexivity|]. cbn [fold_brk]. rewrite N0. exact IH. }
  rewrite FB. exists D. split; [reflexivity|].
  destruct (array_adds (map (fun b => vsub a b) l2) (zVecXDDataInitArray n)) as (CD & WD & _); [cbn; lia| reflexivity|reflexivity|]. fold D in CD, WD.
  destruct (to_addr_list D WD) as (d' & ED & _). exists d'. rewrite ED, CD. f_equal. f_equal. cbn [contents zVecXDDataInitArray]. unfold contents. cbn. rewrite firstn_all2; [reflexivity|].
  rewrite map_length. unfold n. rewrite !size_spec, C1, C2 by assumption. cbn. lia.
Qed.

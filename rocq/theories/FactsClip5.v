(** Triangulation: a loop that is not divided, lists of triangles, an instance *)
From Verif Require Import Base Spec SpecGeom SpecHull SpecClip SpecCol ModelVec ModelElem ModelClip FactsVec FactsAlg FactsElem FactsSat FactsCol3 FactsClip FactsClip2 FactsClip3 FactsClip4.
From Coq Require Import List Lia Lra ZArith.
Import ListNotations.
Open Scope R_scope.

Lemma zero_refuses u v x o : (Rltb 0 (zVec3DInnerProd (tnorm (snd (zTri3DCreate u v x))) v3zero) && zLoop3DTriangulateCheck (snd (zTri3DCreate u v x)) o)%bool = false.
Proof.
  destruct (Rltb 0 _) eqn:E; [|reflexivity]. apply accept_spin in E. exfalso. revert E. unfold spin, v3zero. spec_unfold. cbn. lra.
Qed.
Definition midleft : list vec3 := [V3 0 1 0; V3 0 0 0; V3 2 0 0; V3 2 2 0; V3 0 2 0].
Lemma midleft_norm : zLoop3DTriangulateNorm (V3 0 1 0) [V3 0 0 0; V3 2 0 0; V3 2 2 0; V3 0 2 0] = v3zero.
Proof.
  assert (F : forall x y, y <= x -> Rltb x y = false) by (intros x y H; destruct (Rltb x y) eqn:E; [apply Rltb_true in E; lra|reflexivity]).
  unfold zLoop3DTriangulateNorm. cbn [xExtreme vx]. rewrite !F by lra. cbn [Nat.eqb length Nat.sub nth Nat.add]. set (c := zVec3DOuterProd _ _). assert (E : c = v3zero) by (unfold c; zvg; apply vec3_ext; spec_unfold; cbn; lra). rewrite E.
  unfold zVec3DNormalizeDRC, zVec3DNormalize. replace (zVec3DIsTiny v3zero) with true; [reflexivity|]. symmetry. apply tiny_below3. unfold below, v3zero. cbn [vx vy vz]. rewrite Rabs_R0. pose proof zTOL_pos. auto.
Qed.
Lemma midleft_run : zLoop3DTriangulate midleft = Some [snd (zTri3DCreate (V3 2 0 0) (V3 2 2 0) (V3 0 2 0)); snd (zTri3DCreate (V3 0 0 0) (V3 2 0 0) (V3 2 2 0)); snd (zTri3DCreate (V3 0 1 0) (V3 0 0 0) (V3 2 0 0))].
Proof.
  unfold zLoop3DTriangulate, midleft. rewrite midleft_norm. cbn [length clipLoop Nat.leb clipScan]. rewrite !zero_refuses. cbn [rev app length clipLoop Nat.leb clipScan]. rewrite !zero_refuses. cbn [rev app length clipLoop Nat.leb clipScan]. rewrite !zero_refuses. reflexivity.
Qed.
Lemma midleft_corners a b c : cornersOf (snd (zTri3DCreate a b c)) = (a, b, c).
Proof. unfold cornersOf. destruct (create_corners a b c) as (-> & -> & ->). reflexivity. Qed.
Ltac windcalc := unfold winding, midleft; cbv [loop_sum app firstn path_sum]; unfold hop, spin; spec_unfold; cbn [vx vy vz];
  repeat match goal with |- context [Rle_dec ?x ?y] => destruct (Rle_dec x y); [try (exfalso; lra)|try (exfalso; lra)] end;
  repeat match goal with |- context [Rlt_dec ?x ?y] => destruct (Rlt_dec x y); [try (exfalso; lra)|try (exfalso; lra)] end; reflexivity.
Lemma triangulate_fails : exists l ts p q t t' r, let n := V3 0 0 1 in let w := V3 0 1 0 in planar v3zero n l /\ zLoop3DTriangulate l = Some ts /\
  winding n w p l = 1%Z /\ (forall s, List.In s ts -> ~ closure (cornersOf s) p) /\ winding n w q l = 1%Z /\ ts = t :: t' :: r /\ inner (cornersOf t) q /\ inner (cornersOf t') q.
Proof.
  exists midleft. eexists. exists (V3 (1 / 10) (3 / 2) 0), (V3 (3 / 2) 1 0). do 3 eexists. cbv zeta. split; [|split; [exact midleft_run|]].
  { split; [intros E; apply (f_equal vz) in E; cbn in E; lra|]. intros p I. cbn [midleft List.In] in I. decompose [or] I; subst; try contradiction; spec_unfold; cbn; lra. }
  split; [windcalc|]. split.
  { intros s I. cbn [List.In] in I. destruct I as [<-|[<-|[<-|[]]]]; rewrite midleft_corners; intros (s0 & s1 & s2 & (P0 & P1 & P2 & S) & E);
    pose proof (f_equal vx E) as E1; pose proof (f_equal vy E) as E2; clear E; revert E1 E2; unfold comb3, comb2; spec_unfold; cbn [vx vy vz]; intros; lra. }
  split; [windcalc|]. split; [reflexivity|]. rewrite !midleft_corners. split.
  - exists (1 / 2), (1 / 4), (1 / 4). repeat split; try lra. unfold comb3, comb2. apply vec3_ext; spec_unfold; cbn; lra.
  - exists (1 / 4), (1 / 4), (1 / 2). repeat split; try lra. unfold comb3, comb2. apply vec3_ext; spec_unfold; cbn; lra.
Qed.
(** ** lists of triangles *)
Definition made (t : tri3) : Prop := exists a b c, t = snd (zTri3DCreate a b c).
Lemma align_facts l ref : (forall t, List.In t l -> made t) -> let l' := zTri3DListAlign l ref in length l' = length l /\
  (forall t, List.In t l' -> 0 <= dot ref (cross (vsub (tv1 t) (tv0 t)) (vsub (tv2 t) (tv0 t))) /\ 0 <= dot ref (tnorm t)) /\
  (forall i d, (i < length l)%nat -> let t := nth i l d in let t' := nth i l' d in tv0 t' = tv0 t /\ ((tv1 t' = tv1 t /\ tv2 t' = tv2 t) \/ (tv1 t' = tv2 t /\ tv2 t' = tv1 t))).
Proof.
  intros M. cbv zeta. unfold zTri3DListAlign. split; [apply map_length|]. split.
  - intros t I. apply in_map_iff in I. destruct I as (s & <- & I). destruct (M s I) as (a & b & c & ->). destruct (create_norm a b c) as (k & K & E). cbv zeta in E. destruct (create_corners a b c) as (C0 & C1 & C2). set (s := snd (zTri3DCreate a b c)) in *.
    assert (D : zVec3DInnerProd ref (tnorm s) = k * dot ref (cross (vsub b a) (vsub c b))) by (rewrite E; zvg; clear; spec_unfold; ring).
    rewrite D. destruct (Rltb (k * _) 0) eqn:Q.
    + apply Rltb_true in Q. unfold zTri3DFlip. rewrite C0, C1, C2. destruct (create_norm a c b) as (k' & K' & E'). cbv zeta in E'. destruct (create_corners a c b) as (-> & -> & ->). rewrite E'.
      assert (F : dot ref (cross (vsub b a) (vsub c b)) < 0) by (apply (Rmult_lt_reg_l k); lra). split.
      * replace (dot ref (cross (vsub c a) (vsub b a))) with (- dot ref (cross (vsub b a) (vsub c b))) by (clear; spec_unfold; ring). lra.
      * replace (dot ref (vscale k' (cross (vsub c a) (vsub b c)))) with (k' * - dot ref (cross (vsub b a) (vsub c b))) by (clear; spec_unfold; ring). apply Rmult_le_pos; lra.
    + assert (F : 0 <= k * dot ref (cross (vsub b a) (vsub c b))) by (destruct (Rle_dec 0 (k * dot ref (cross (vsub b a) (vsub c b)))); [assumption|exfalso; assert (Rltb (k * dot ref (cross (vsub b a) (vsub c b))) 0 = true) by (apply Rltb_true; lra); congruence]).
      rewrite C0, C1, C2, E. split.
      * replace (dot ref (cross (vsub b a) (vsub c a))) with (dot ref (cross (vsub b a) (vsub c b))) by (clear; spec_unfold; ring). apply (Rmult_le_reg_l k); lra.
      * replace (dot ref (vscale k (cross (vsub b a) (vsub c b)))) with (k * dot ref (cross (vsub b a) (vsub c b))) by (clear; spec_unfold; ring). exact F.
  - intros i d I. set (f := fun t : tri3 => if Rltb (zVec3DInnerProd ref (tnorm t)) 0 then snd (zTri3DFlip t) else t). rewrite (nth_indep _ d (f d)) by (rewrite map_length; exact I). rewrite (map_nth f). unfold f. destruct (Rltb _ 0); [|auto]. unfold zTri3DFlip. destruct (create_corners (tv0 (nth i l d)) (tv2 (nth i l d)) (tv1 (nth i l d))) as (-> & -> & ->). auto.
Qed.
Lemma copy_facts (l : list tri3) n : length (zTri3DListCopyArray l n) = Nat.min (Nat.max 1 n) (length l) /\ forall i d, (i < length (zTri3DListCopyArray l n))%nat -> nth i (zTri3DListCopyArray l n) d = nth i l d.
Proof.
  unfold zTri3DListCopyArray. set (k := Nat.max 1 n). split; [apply firstn_length|]. intros i d I. rewrite firstn_length in I. rewrite <- (firstn_skipn k l) at 2. rewrite app_nth1; [reflexivity|rewrite firstn_length; exact I].
Qed.
(** ** an instance *)
Definition quad : list vec3 := [V3 0 0 0; V3 2 0 0; V3 2 2 0; V3 0 2 0].
Lemma quad_order : norm (V3 0 0 1) = 1 /\ planar v3zero (V3 0 0 1) quad /\ convex_order (V3 0 0 1) quad.
Proof.
  split; [unfold norm; replace (dot (V3 0 0 1) (V3 0 0 1)) with 1 by (spec_unfold; cbn; lra); apply sqrt_1|]. split.
  - split; [intros E; apply (f_equal vz) in E; cbn in E; lra|]. intros p I. cbn [quad List.In] in I. decompose [or] I; subst; try contradiction; spec_unfold; cbn; lra.
  - assert (D : forall a b, -2 <= vx a - vx b <= 2 -> -2 <= vy a - vy b <= 2 -> vz a = 0 -> vz b = 0 -> dist a b <= 3).
    { intros a b X Y Za Zb. unfold dist. apply Rsqr_incr_0_var; [|lra]. unfold Rsqr. rewrite norm_sqr. spec_unfold. rewrite Za, Zb. nra. }
    pose proof zTOL_small as T. pose proof zTOL_pos as T'. intros i j k (I & J) K. cbn [quad length] in K.
    assert (C : (i = 0 /\ j = 1 /\ k = 2)%nat \/ (i = 0 /\ j = 1 /\ k = 3)%nat \/ (i = 0 /\ j = 2 /\ k = 3)%nat \/ (i = 1 /\ j = 2 /\ k = 3)%nat) by lia.
    destruct C as [(-> & -> & ->)|[(-> & -> & ->)|[(-> & -> & ->)|(-> & -> & ->)]]]; cbn [nth quad]; cbv zeta;
    match goal with |- _ /\ zTOL * dist ?a ?b <= spin ?n ?x ?y ?z => assert (H : dist a b <= 3) by (apply D; cbn; lra); assert (G : 0 <= dist a b) by apply norm_nonneg; replace (spin n x y z) with 4 by (unfold spin; spec_unfold; cbn; lra) end; split; nra.
Qed.

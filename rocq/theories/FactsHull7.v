(** Closest point of a planar hull: the scan over visible edges *)
From Verif Require Import Base Spec SpecGeom SpecHull ModelVec ModelElem ModelHull FactsVec FactsAlg FactsElem FactsSat FactsHull FactsHull2 FactsHull3 FactsHull4 FactsHull5 FactsHull6.
From Coq Require Import List Lia Lra ZArith.
Import ListNotations.
Open Scope R_scope.

Section Scan.
Variables (p norm : vec3).
Definition vis (a b : vec3) : Prop := dot norm (cross (vsub a p) (vsub b p)) < 0.
Lemma vis_dec a b : Rltb (zVec3DInnerProd norm (zVec3DOuterProd (zVec3DSub a p) (zVec3DSub b p))) 0 = true <-> vis a b.
Proof. zvg. unfold vis. apply Rltb_true. Qed.
Lemma adj_head (x y : vec3) l a b : adj (x :: y :: l) a b -> (a = x /\ b = y) \/ adj (y :: l) a b.
Proof. intros (q & s & E). destruct q as [|w q]; cbn in E; [injection E as -> -> _; left; split; reflexivity|]. injection E as -> E. right. exists q, s. exact E. Qed.
Lemma scan_sound : forall l vcp d cp, (forall a b, adj (vcp :: l) a b -> vis a b -> a <> b) ->
  exists d' cp', ch2d_scan p norm (zVec3DSub vcp p) vcp d cp l = Some (d', cp') /\
    ((d' = d /\ cp' = cp /\ (d = None -> forall a b, adj (vcp :: l) a b -> ~ vis a b)) \/
     exists a b, adj (vcp :: l) a b /\ vis a b /\ nearest (segment b a) p cp' /\ d' = Some (dist p cp')).
Proof.
  induction l as [|vc l IH]; intros vcp d cp H; cbn [ch2d_scan].
  - exists d, cp. split; [reflexivity|]. left. split; [reflexivity|]. split; [reflexivity|]. intros _ a b (q & s & E). destruct q as [|? [|? ?]]; discriminate.
  - destruct (Rltb _ 0) eqn:V.
    + apply vis_dec in V. assert (J : adj (vcp :: vc :: l) vcp vc) by (exists [], l; reflexivity). destruct (edge3_closest (E3 vc vcp) p) as (dn & tmp & E & Nr & Dn). { cbn. intros K. apply (H vcp vc J V). auto. }
      rewrite E. cbn [ev0 ev1] in Nr. destruct d as [d|]; [destruct (Rltb d dn) eqn:C|].
      * exists (Some d), cp. split; [reflexivity|]. left. split; [reflexivity|]. split; [reflexivity|discriminate].
      * destruct (IH vc (Some dn) tmp) as (d' & cp' & E' & [(-> & -> & _)|(a & b & Ja & Va & Na & Da)]); [intros a b Ja; apply H, adj_cons, Ja| |].
        -- exists (Some dn), tmp. split; [exact E'|]. right. exists vcp, vc. split; [exact J|]. split; [exact V|]. split; [exact Nr|rewrite Dn; reflexivity].
        -- exists d', cp'. split; [exact E'|]. right. exists a, b. split; [apply adj_cons, Ja|auto].
      * destruct (IH vc (Some dn) tmp) as (d' & cp' & E' & [(-> & -> & _)|(a & b & Ja & Va & Na & Da)]); [intros a b Ja; apply H, adj_cons, Ja| |].
        -- exists (Some dn), tmp. split; [exact E'|]. right. exists vcp, vc. split; [exact J|]. split; [exact V|]. split; [exact Nr|rewrite Dn; reflexivity].
        -- exists d', cp'. split; [exact E'|]. right. exists a, b. split; [apply adj_cons, Ja|auto].
    + assert (NV : ~ vis vcp vc) by (intros K; apply vis_dec in K; congruence). destruct (IH vc d cp) as (d' & cp' & E' & [(-> & -> & N)|(a & b & Ja & Va & Na & Da)]); [intros a b Ja; apply H, adj_cons, Ja| |].
      * exists d, cp. split; [exact E'|]. left. split; [reflexivity|]. split; [reflexivity|]. intros D a b Ja. apply adj_head in Ja. destruct Ja as [(-> & ->)|Ja]; [exact NV|apply N; assumption].
      * exists d', cp'. split; [exact E'|]. right. exists a, b. split; [apply adj_cons, Ja|auto].
Qed.
Lemma scan_two x1 x2 : forall l vcp d cp d' cp', ch2d_scan p norm (zVec3DSub vcp p) vcp d cp l = Some (d', cp') ->
  (forall a b e c, adj (vcp :: l) a b -> vis a b -> zEdge3DClosest (E3 b a) p = Some (e, c) -> e = x1 \/ e = x2) -> (d = None \/ d = Some x1 \/ d = Some x2) ->
  (forall x, d = Some x -> exists y, d' = Some y /\ y <= x) /\ (forall a b e c, adj (vcp :: l) a b -> vis a b -> zEdge3DClosest (E3 b a) p = Some (e, c) -> exists y, d' = Some y /\ y <= e).
Proof.
  induction l as [|vc l IH]; intros vcp d cp d' cp' E H D; cbn [ch2d_scan] in E.
  - injection E as <- <-. split; [intros x ->; exists x; split; [reflexivity|lra]|]. intros a b e c (q & s & K). destruct q as [|? [|? ?]]; discriminate.
  - assert (H' : forall a b e c, adj (vc :: l) a b -> vis a b -> zEdge3DClosest (E3 b a) p = Some (e, c) -> e = x1 \/ e = x2) by (intros a b e c Ja; apply (H a b e c), adj_cons, Ja).
    destruct (Rltb (zVec3DInnerProd norm (zVec3DOuterProd (zVec3DSub vcp p) (zVec3DSub vc p))) 0) eqn:V.
    + apply vis_dec in V. destruct (zEdge3DClosest (E3 vc vcp) p) as [[dn tmp]|] eqn:Ec; [|discriminate].
      assert (Dn : dn = x1 \/ dn = x2) by (apply (H vcp vc dn tmp); [exists [], l; reflexivity|exact V|exact Ec]).
      assert (GO : forall e0, d = e0 -> match e0 with Some d => Rltb d dn = false | None => True end -> ch2d_scan p norm (zVec3DSub vc p) vc (Some dn) tmp l = Some (d', cp') ->
        (forall x, d = Some x -> exists y, d' = Some y /\ y <= x) /\ (forall a b e c, adj (vcp :: vc :: l) a b -> vis a b -> zEdge3DClosest (E3 b a) p = Some (e, c) -> exists y, d' = Some y /\ y <= e)).
      { intros e0 Ed Cd Es. destruct (IH vc (Some dn) tmp d' cp' Es H') as (I1 & I2); [destruct Dn as [-> | ->]; tauto|]. destruct (I1 dn eq_refl) as (y & Ey & Ly). split.
        - intros x Ex. exists y. split; [exact Ey|]. rewrite <- Ed, Ex in Cd. apply Rltb_false in Cd. lra.
        - intros a b e c Ja Va Ea. apply adj_head in Ja. destruct Ja as [(-> & ->)|Ja]; [|apply (I2 a b e c); assumption]. rewrite Ec in Ea. injection Ea as <- _. exists y. auto. }
      destruct d as [d0|]; [destruct (Rltb d0 dn) eqn:C|].
      * injection E as <- <-. apply Rltb_true in C. split; [intros x Ex; exists d0; injection Ex as <-; split; [reflexivity|lra]|]. intros a b e c Ja Va Ea. exists d0. split; [reflexivity|].
        assert (D0 : d0 = x1 \/ d0 = x2) by (destruct D as [D|[D|D]]; [discriminate|injection D as <-; tauto|injection D as <-; tauto]). destruct (H a b e c Ja Va Ea) as [-> | ->]; destruct D0 as [-> | ->], Dn as [-> | ->]; lra.
      * apply (GO (Some d0)); [reflexivity|exact C|exact E].
      * apply (GO None); [reflexivity|exact I|exact E].
    + assert (NV : ~ vis vcp vc) by (intros K; apply vis_dec in K; congruence). destruct (IH vc d cp d' cp' E H' D) as (I1 & I2). split; [exact I1|]. intros a b e c Ja Va Ea. apply adj_head in Ja. destruct Ja as [(-> & ->)|Ja]; [contradiction|apply (I2 a b e c); assumption].
Qed.
End Scan.

(** ** the whole routine on a convex loop *)
Lemma rot_edges (h : vec3) M a b : adj (h :: M ++ [h]) a b <-> loop_edge (M ++ [h]) a b.
Proof.
  unfold loop_edge. destruct M as [|m M]; [reflexivity|]. cbn [app firstn]. change (adj (h :: m :: M ++ [h]) a b <-> adj ((m :: M ++ [h]) ++ [m]) a b). split.
  - intros J. apply adj_head in J. destruct J as [(-> & ->)|(q & s & J)]; [exists (m :: M), []; cbn; rewrite <- app_assoc; reflexivity|]. exists q, (s ++ [m]). rewrite J. rewrite <- app_assoc. reflexivity.
  - intros J. change (adj (m :: (M ++ [h]) ++ [m]) a b) in J. rewrite <- app_assoc in J. change (adj ((m :: M) ++ h :: [m]) a b) in J. apply adj_split in J. destruct J as [J|(q & s & J)]; [apply adj_cons, J|].
    destruct q as [|? [|? [|? ?]]]; cbn in J; try discriminate. injection J as -> -> _. exists [], (M ++ [a]). reflexivity.
Qed.
Section Closest.
Variables (o n : vec3) (L : list vec3).
Hypothesis CL : convex_loop o n L.
Lemma closest_scan p : exists norm k h, 0 < k /\ norm = vscale k n /\ zConvexHull2DClosest L p = ch2d_scan p norm (zVec3DSub h p) h None p L /\ (forall a b, adj (h :: L) a b <-> loop_edge L a b).
Proof.
  pose proof CL as (H3 & (Nz & Pl) & _ & T). unfold zConvexHull2DClosest. destruct (rev L) as [|h [|h1 [|h2 M]]] eqn:ER; try (apply (f_equal (@length vec3)) in ER; rewrite rev_length in ER; cbn in ER; lia).
  assert (EL : L = rev M ++ [h2; h1; h]). { rewrite <- (rev_involutive L), ER. cbn. rewrite <- !app_assoc. reflexivity. }
  assert (Tr : loop_turn L h2 h1 h). { exists (rev M), (firstn 2 L). rewrite EL at 1. rewrite <- app_assoc. reflexivity. }
  pose proof (T _ _ _ Tr) as P. assert (I0 : List.In h L) by (rewrite EL; apply in_or_app; right; right; right; left; reflexivity). assert (I1 : List.In h1 L) by (rewrite EL; apply in_or_app; right; right; left; reflexivity). assert (I2 : List.In h2 L) by (rewrite EL; apply in_or_app; right; left; reflexivity).
  pose proof (Pl _ I0) as P0. pose proof (Pl _ I1) as P1. pose proof (Pl _ I2) as P2.
  destruct (cross_plane n (vsub h2 h) (vsub h1 h)) as (k & K); [spec_unfold; lra|spec_unfold; lra|exact Nz|].
  assert (N2 : 0 < dot n n) by (destruct (dot_self_nonneg n) as [U|U]; [exact U|]; symmetry in U; apply dot_self_zero in U; contradiction).
  exists (vscale k n), k, h. split.
  - assert (E : cross (vsub h1 h2) (vsub h h2) = cross (vsub h2 h) (vsub h1 h)) by (apply vec3_ext; spec_unfold; ring). rewrite E, K in P. replace (dot n (vscale k n)) with (k * dot n n) in P by (spec_unfold; ring). nra.
  - split; [reflexivity|]. split; [cbv zeta; zvg; rewrite <- K; reflexivity|]. intros a b. assert (EL' : L = (rev M ++ [h2; h1]) ++ [h]) by (rewrite EL, <- app_assoc; reflexivity). rewrite EL'. apply rot_edges.
Qed.
Lemma vis_side p k a b : 0 < k -> (vis p (vscale k n) a b <-> side n a b p < 0).
Proof.
  intros K. unfold vis. replace (dot (vscale k n) (cross (vsub a p) (vsub b p))) with (k * side n a b p) by (unfold side; spec_unfold; ring). split; intros H; nra.
Qed.
(** inside: the "distance" is HUGE_VAL; outside: a point of a visible edge, nearest to the query on that edge *)
Theorem closest_sound p : exists d cp, zConvexHull2DClosest L p = Some (d, cp) /\
  ((d = None /\ cp = p /\ forall a b, loop_edge L a b -> 0 <= side n a b p) \/
   exists a b, loop_edge L a b /\ side n a b p < 0 /\ nearest (segment a b) p cp /\ d = Some (dist p cp)).
Proof.
  destruct (closest_scan p) as (norm & k & h & K & -> & -> & A). destruct (scan_sound p (vscale k n) L h None p) as (d & cp & E & C).
  { intros a b J _. apply A in J. exact (edge_distinct o n L CL a b J). }
  exists d, cp. split; [exact E|]. destruct C as [(-> & -> & N)|(a & b & J & V & Nr & ->)].
  - left. split; [reflexivity|]. split; [reflexivity|]. intros a b J. destruct (Rle_or_lt 0 (side n a b p)) as [G|G]; [exact G|]. exfalso. apply (N eq_refl a b); [apply A, J|apply vis_side; assumption].
  - right. exists a, b. split; [apply A, J|]. split; [apply (vis_side p k); assumption|]. split; [|reflexivity]. destruct Nr as ((s & t & W & ->) & M).
    assert (Sw : forall x, segment a b x -> segment b a x). { intros x (u & v & (W1 & W2 & W3) & ->). exists v, u. split; [unfold weights2; lra|]. unfold comb2. apply vec3_ext; spec_unfold; ring. }
    split; [exists t, s; split; [unfold weights2 in *; lra|unfold comb2; apply vec3_ext; spec_unfold; ring]|]. intros x X. apply M, Sw, X.
Qed.
(** correct when at most two edges are visible *)
Theorem closest_two p a1 b1 a2 b2 : dot n (vsub p o) = 0 -> (exists a b, loop_edge L a b /\ side n a b p < 0) ->
  (forall a b, loop_edge L a b -> side n a b p < 0 -> (a = a1 /\ b = b1) \/ (a = a2 /\ b = b2)) ->
  exists cp, zConvexHull2DClosest L p = Some (Some (dist p cp), cp) /\ nearest (convex_hull L) p cp.
Proof.
  intros Pp Ex Tw. destruct (closest_sound p) as (d & cp & E & [(-> & -> & N)|(a & b & J & V & Nr & ->)]).
  { exfalso. destruct Ex as (a & b & J & V). specialize (N a b J). lra. }
  exists cp. split; [exact E|]. split.
  - destruct (loop_edge_in _ _ _ J) as (Ia & Ib). apply (hull_mix L a b); [apply hull_point, Ia|apply hull_point, Ib|apply Nr].
  - intros q Hq. destruct (reach o n L CL p q Pp Ex Hq) as (u & w & x & Ju & Vu & Sx & Dx).
    destruct (closest_scan p) as (norm & k & h & K & -> & E' & A). rewrite E' in E.
    assert (CE : forall a b, loop_edge L a b -> exists e c, zEdge3DClosest (E3 b a) p = Some (e, c) /\ nearest (segment b a) p c /\ e = dist p c).
    { intros a' b' J'. apply (edge3_closest (E3 b' a') p). cbn. intros K'. apply (edge_distinct o n L CL a' b' J'). auto. }
    destruct (CE u w Ju) as (e & c & Ec & Nc & De).
    set (x1 := match zEdge3DClosest (E3 b1 a1) p with Some (e, _) => e | None => 0 end). set (x2 := match zEdge3DClosest (E3 b2 a2) p with Some (e, _) => e | None => 0 end).
    destruct (scan_two p (vscale k n) x1 x2 L h None p (Some (dist p cp)) cp E) as (_ & S).
    { intros a' b' e' c' J' V' E''. apply A in J'. apply vis_side in V'; [|exact K]. destruct (Tw a' b' J' V') as [(-> & ->)|(-> & ->)]; [left; unfold x1|right; unfold x2]; rewrite E''; reflexivity. }
    { left. reflexivity. }
    destruct (S u w e c) as (y & Ey & Ly); [apply A, Ju|apply vis_side; assumption|exact Ec|]. injection Ey as <-.
    assert (segment w u x). { destruct Sx as (s & t & (W1 & W2 & W3) & ->). exists t, s. split; [unfold weights2; lra|]. unfold comb2. apply vec3_ext; spec_unfold; ring. }
    destruct Nc as (_ & Nc). specialize (Nc x H). lra.
Qed.
End Closest.

(** The oriented bounding box *)
From Verif Require Import Base Spec SpecGeom SpecHull SpecBBox ModelVec ModelElem ModelBox ModelPH ModelHull ModelBBox FactsVec FactsAlg FactsElem FactsSat FactsHull FactsHull2 FactsHull3 FactsHull4 FactsHull5 FactsHull6 FactsHull7 FactsHull8 FactsLine FactsCentre FactsPH2 FactsPH4 FactsObb FactsBBox.
From Coq Require Import List Lia Lra ZArith.
Import ListNotations.
Open Scope R_scope.

(** ** ranges *)
Lemma range_fold d l : forall mn mx, mn <= mx ->
  let '(mn', mx') := fold_left (fun '(mn, mx) v => let x := zVec3DInnerProd d v in (if Rltb x mn then x else mn, if Rltb mx x then x else mx)) l (mn, mx) in
  mn' <= mn /\ mx <= mx' /\ (mn' = mn \/ exists v, List.In v l /\ mn' = dot d v) /\ (mx' = mx \/ exists v, List.In v l /\ mx' = dot d v) /\ forall v, List.In v l -> mn' <= dot d v <= mx'.
Proof.
  induction l as [|a l IH]; intros mn mx H; cbn [fold_left]; [split; [lra|]; split; [lra|]; split; [auto|]; split; [auto|]; intros v []|]. cbv zeta.
  change (zVec3DInnerProd d a) with (dot d a). set (mn1 := if Rltb (dot d a) mn then dot d a else mn). set (mx1 := if Rltb mx (dot d a) then dot d a else mx).
  assert (M1 : mn1 <= mn /\ mn1 <= dot d a /\ (mn1 = mn \/ mn1 = dot d a)) by (unfold mn1; destruct (Rltb_reflect (dot d a) mn); split; auto; lra).
  assert (M2 : mx <= mx1 /\ dot d a <= mx1 /\ (mx1 = mx \/ mx1 = dot d a)) by (unfold mx1; destruct (Rltb_reflect mx (dot d a)); split; auto; lra).
  clearbody mn1 mx1. specialize (IH mn1 mx1 ltac:(lra)). destruct (fold_left _ l (mn1, mx1)) as [mn' mx']. destruct IH as (A & B & C & D & E).
  split; [lra|]. split; [lra|]. split; [|split].
  - destruct C as [C1|(v & I & C1)]; [destruct M1 as (_ & _ & [M|M]); [left; congruence|right; exists a; split; [left; reflexivity|congruence]]|right; exists v; split; [right; exact I|exact C1]].
  - destruct D as [C1|(v & I & C1)]; [destruct M2 as (_ & _ & [M|M]); [left; congruence|right; exists a; split; [left; reflexivity|congruence]]|right; exists v; split; [right; exact I|exact C1]].
  - intros v [<-|I]; [lra|apply E, I].
Qed.
Lemma range_ok d t l : List.In t l -> exists mn mx, obb_range d t l = (mn, mx) /\ extent d l (mx - mn) /\ (forall v, List.In v l -> mn <= dot d v <= mx).
Proof.
  intros I. unfold obb_range. change (zVec3DInnerProd d t) with (dot d t). pose proof (range_fold d l (dot d t) (dot d t) ltac:(lra)) as H. destruct (fold_left _ l _) as [mn mx]. destruct H as (A & B & C & D & E).
  exists mn, mx. split; [reflexivity|]. split; [|exact E].
  assert (C' : exists v, List.In v l /\ mn = dot d v) by (destruct C as [ -> |C]; [exists t; auto|exact C]). assert (D' : exists v, List.In v l /\ mx = dot d v) by (destruct D as [ -> |D]; [exists t; auto|exact D]).
  destruct C' as (q & Iq & ->). destruct D' as (p & Ip & ->). exists p, q. repeat split; try assumption; [spec_unfold; ring|].
  intros x y X Y. pose proof (E x X). pose proof (E y Y). replace (dot d (vsub x y)) with (dot d x - dot d y) by (spec_unfold; ring). lra.
Qed.
Lemma rect_ok L d1 d2 : L <> [] -> dot d1 d1 = 1 -> dot d2 d2 = 1 -> dot d1 d2 = 0 ->
  exists c w1 w2 k1 k2, zOBB3DRect L d1 d2 = Some (w1 * w2, c, w1, w2) /\ extent d1 L w1 /\ extent d2 L w2 /\ c = vadd (vscale k1 d1) (vscale k2 d2) /\
    forall v, List.In v L -> Rabs (dot d1 v - k1) <= w1 / 2 /\ Rabs (dot d2 v - k2) <= w2 / 2.
Proof.
  intros N U1 U2 O. unfold zOBB3DRect. destruct L as [|t L']; [contradiction|]. set (L := t :: L') in *.
  destruct (range_ok d1 t L (or_introl eq_refl)) as (mn1 & mx1 & E1 & X1 & B1). destruct (range_ok d2 t L (or_introl eq_refl)) as (mn2 & mx2 & E2 & X2 & B2). rewrite E1, E2.
  exists (zVec3DCat (zVec3DMul d1 (1 / 2 * (mx1 + mn1))) (1 / 2 * (mx2 + mn2)) d2), (mx1 - mn1), (mx2 - mn2), (1 / 2 * (mx1 + mn1)), (1 / 2 * (mx2 + mn2)). split; [reflexivity|]. split; [exact X1|]. split; [exact X2|].
  split; [zvg; vring|]. intros v I. specialize (B1 v I). specialize (B2 v I). split; apply Rabs_le; lra.
Qed.
(** ** the pairs *)
Lemma pairs_adj L : forall prev v w, List.In (v, w) (obb_pairs prev L) <-> exists p s, prev :: L = p ++ w :: v :: s.
Proof.
  induction L as [|a L IH]; intros prev v w; cbn [obb_pairs].
  - split; [intros []|]. intros (p & s & E). destruct p as [|? [|? ?]]; discriminate.
  - split.
    + intros [E|I]; [injection E as <- <-; exists [], L; reflexivity|]. apply IH in I. destruct I as (p & s & E). exists (prev :: p), s. rewrite E. reflexivity.
    + intros (p & s & E). destruct p as [|x p]; [injection E as <- <- <-; left; reflexivity|]. injection E as <- E. right. apply IH. exists p, s. exact E.
Qed.
Lemma pairs_edges L : L <> [] -> forall v w, List.In (v, w) (obb_pairs (last L v3zero) L) <-> loop_edge L w v.
Proof.
  intros N v w. rewrite pairs_adj. destruct (exists_last N) as (M & h & E). rewrite E. rewrite last_last. apply (rot_edges h M w v).
Qed.
(** ** the least rectangle on an edge *)
Lemma long_not_negl u : 2 * zTOL <= norm u -> ~ negligible u.
Proof.
  intros H (A & B & C). pose proof zTOL_pos as Z. pose proof (norm_sqr u) as S. pose proof (norm_nonneg u) as P.
  assert (Q : forall x, Rabs x < zTOL -> x * x < zTOL * zTOL) by (intros x X; apply Rabs_def2 in X; nra). apply Q in A, B, C.
  unfold dot in S. assert (4 * (zTOL * zTOL) <= norm u * norm u) by nra. nra.
Qed.
Definition unit_of (u : vec3) : vec3 := vscale (1 / norm u) u.
Section Turn.
Variables (n : vec3) (L : list vec3).
Hypothesis Un : dot n n = 1.
Hypothesis NL : L <> [].
Definition usable (e : vec3 * vec3) : Prop := dot n (vsub (snd e) (fst e)) = 0 /\ 2 * zTOL <= norm (vsub (snd e) (fst e)).
Lemma cross_norm u : dot n u = 0 -> norm (cross n u) = norm u.
Proof. intros H. unfold norm. f_equal. replace (dot (cross n u) (cross n u)) with (dot n n * dot u u - dot n u * dot n u) by (spec_unfold; ring). rewrite Un, H. ring. Qed.
Lemma unit_frame u : dot n u = 0 -> 0 < norm u -> let e := unit_of u in dot e e = 1 /\ dot n e = 0 /\ dot (cross n e) (cross n e) = 1 /\ dot e (cross n e) = 0 /\ dot n (cross n e) = 0 /\ vscale (norm u) e = u.
Proof.
  intros H P e. pose proof (norm_sqr u) as S. assert (E1 : dot e e = 1). { unfold e, unit_of. replace (dot (vscale (1 / norm u) u) (vscale (1 / norm u) u)) with (1 / norm u * (1 / norm u) * dot u u) by (spec_unfold; ring). rewrite <- S. field. lra. }
  assert (E2 : dot n e = 0). { unfold e, unit_of. replace (dot n (vscale (1 / norm u) u)) with (1 / norm u * dot n u) by (spec_unfold; ring). rewrite H. ring. }
  split; [exact E1|]. split; [exact E2|]. split; [replace (dot (cross n e) (cross n e)) with (dot n n * dot e e - dot n e * dot n e) by (spec_unfold; ring); rewrite Un, E1, E2; ring|].
  split; [spec_unfold; ring|]. split; [spec_unfold; ring|]. unfold e, unit_of. apply vec3_ext; unfold vscale; cbn [vx vy vz]; field; lra.
Qed.
Lemma turn_step st v w : usable (v, w) -> exists c w1 w2 k1 k2, let e1 := unit_of (vsub w v) in let e2 := cross n e1 in
  extent e1 L w1 /\ extent e2 L w2 /\ c = vadd (vscale k1 e1) (vscale k2 e2) /\ (forall x, List.In x L -> Rabs (dot e1 x - k1) <= w1 / 2 /\ Rabs (dot e2 x - k2) <= w2 / 2) /\
  obb_turn n L st (v, w) = if match st with None => true | Some (am, _, _, _, _, _) => Rltb (w1 * w2) am end then Some (w1 * w2, e1, e2, c, w1, w2) else st.
Proof.
  intros (O & G). cbn [fst snd] in *. set (u := vsub w v) in *. pose proof zTOL_pos as Z. destruct (unit_frame u O ltac:(lra)) as (A1 & A2 & A3 & A4 & _).
  destruct (rect_ok L (unit_of u) (cross n (unit_of u)) NL A1 A3 A4) as (c & w1 & w2 & k1 & k2 & E & X1 & X2 & C & B).
  exists c, w1, w2, k1, k2. cbv zeta. split; [exact X1|]. split; [exact X2|]. split; [exact C|]. split; [exact B|].
  unfold obb_turn. cbn [fst snd]. change (zVec3DSub w v) with u. change (zVec3DOuterProd n u) with (cross n u).
  rewrite (normalizeDRC_ok u) by (apply long_not_negl, G). rewrite (normalizeDRC_ok (cross n u)) by (apply long_not_negl; rewrite cross_norm; assumption). cbn [snd]. rewrite (cross_norm u O).
  change (vscale (1 / norm u) u) with (unit_of u). replace (vscale (1 / norm u) (cross n u)) with (cross n (unit_of u)) by (unfold unit_of; vring). rewrite E. reflexivity.
Qed.
(** the state after some edges *)
Definition chosen (ps : list (vec3 * vec3)) (st : option (R * vec3 * vec3 * vec3 * R * R)) : Prop := match st with
  | None => ps = []
  | Some (area, e1, e2, c, w1, w2) => exists v w k1 k2, List.In (v, w) ps /\ e1 = unit_of (vsub w v) /\ e2 = cross n e1 /\ area = w1 * w2 /\ extent e1 L w1 /\ extent e2 L w2 /\
      c = vadd (vscale k1 e1) (vscale k2 e2) /\ (forall x, List.In x L -> Rabs (dot e1 x - k1) <= w1 / 2 /\ Rabs (dot e2 x - k2) <= w2 / 2) /\
      forall v' w' a b, List.In (v', w') ps -> extent (unit_of (vsub w' v')) L a -> extent (cross n (unit_of (vsub w' v'))) L b -> w1 * w2 <= a * b
  end.
Lemma turn_fold : forall ps done st, chosen done st -> Forall usable ps -> chosen (done ++ ps) (fold_left (obb_turn n L) ps st).
Proof.
  induction ps as [|[v w] ps IH]; intros done st C F; [rewrite app_nil_r; exact C|]. inversion F as [|? ? F1 F2]; subst. cbn [fold_left].
  replace (done ++ (v, w) :: ps) with ((done ++ [(v, w)]) ++ ps) by (rewrite <- app_assoc; reflexivity). apply IH; [|exact F2].
  destruct (turn_step st v w F1) as (c & w1 & w2 & k1 & k2 & X1 & X2 & EC & B & E). cbv zeta in *. rewrite E. clear E.
  assert (SELF : forall a b, extent (unit_of (vsub w v)) L a -> extent (cross n (unit_of (vsub w v))) L b -> w1 * w2 = a * b) by (intros a b Y1 Y2; rewrite (extent_unique _ _ _ _ X1 Y1), (extent_unique _ _ _ _ X2 Y2); reflexivity).
  destruct st as [[[[[[am f1] f2] c0] u1] u2]|].
  - destruct C as (v0 & w0 & h1 & h2 & I & E1 & E2 & Ea & Y1 & Y2 & Ec & Bc & M). destruct (Rltb_reflect (w1 * w2) am) as [H|H].
    + exists v, w, k1, k2. split; [apply in_or_app; right; left; reflexivity|]. do 7 (split; [first [reflexivity|assumption]|]).
      intros v' w' a b J A1 A2. apply in_app_or in J. destruct J as [J|[J|[]]]; [specialize (M v' w' a b J A1 A2); lra|]. injection J as <- <-. rewrite (SELF a b A1 A2). lra.
    + exists v0, w0, h1, h2. split; [apply in_or_app; left; exact I|]. do 7 (split; [first [reflexivity|assumption]|]).
      intros v' w' a b J A1 A2. apply in_app_or in J. destruct J as [J|[J|[]]]; [apply (M v' w' a b J A1 A2)|]. injection J as <- <-. rewrite <- (SELF a b A1 A2). lra.
  - cbn in C. subst done. cbn [app]. exists v, w, k1, k2. split; [left; reflexivity|]. do 7 (split; [first [reflexivity|assumption]|]).
    intros v' w' a b J A1 A2. destruct J as [J|[]]. injection J as <- <-. rewrite (SELF a b A1 A2). lra.
Qed.
End Turn.
(** ** the thinnest face *)
Lemma created_unit t : created t -> ~ negligible (tri_normal (tv0 t) (tv1 t) (tv2 t)) ->
  dot (tnorm t) (tnorm t) = 1 /\ (forall p, zTri3DDistFromPointToPlane t p = dot (tnorm t) (vsub p (tv0 t))) /\
  exists k, 0 < k /\ forall p, height t p = k * dot (tnorm t) (vsub p (tv0 t)).
Proof.
  intros C N. destruct (tri_creation (tv0 t) (tv1 t) (tv2 t)) as (_ & H). destruct (H N) as (t' & E & _ & _ & _ & U & S & _ & D). unfold created in C. rewrite C in E. injection E as <-.
  split; [rewrite <- norm_sqr, U; ring|]. split; [intros p; rewrite D; apply dot_comm|]. exists (norm (tri_normal (tv0 t) (tv1 t) (tv2 t))). split; [apply nonneg_norm_pos, N|].
  intros p. unfold height. rewrite <- S at 1. generalize (norm (tri_normal (tv0 t) (tv1 t) (tv2 t))). intros. spec_unfold. ring.
Qed.
Lemma depth_fold (g : vec3 -> R) vs : forall l0, let l := fold_left (fun l v => let ls := - g v in if Rltb l ls then ls else l) vs l0 in
  l0 <= l /\ (l = l0 \/ exists v, List.In v vs /\ l = - g v) /\ forall v, List.In v vs -> - g v <= l.
Proof.
  induction vs as [|a vs IH]; intros l0; cbn [fold_left]; [split; [apply Rle_refl|]; split; [left; reflexivity|intros v []]|]. cbv zeta.
  set (l1 := if Rltb l0 (- g a) then - g a else l0). assert (M : l0 <= l1 /\ - g a <= l1 /\ (l1 = l0 \/ l1 = - g a)) by (unfold l1; destruct (Rltb_reflect l0 (- g a)); split; auto; lra). clearbody l1.
  destruct (IH l1) as (A & B & C). cbv zeta in *. set (l := fold_left _ vs l1) in *. clearbody l. split; [lra|]. split.
  - destruct B as [B|(v & I & B)]; [|right; exists v; split; [right; exact I|exact B]]. destruct M as (_ & _ & [M|M]); [left; congruence|right; exists a; split; [left; reflexivity|congruence]].
  - intros v [<-|I]; [lra|apply C, I].
Qed.
Lemma depth_ok t vs : (forall p, zTri3DDistFromPointToPlane t p = dot (tnorm t) (vsub p (tv0 t))) -> List.In (tv0 t) vs -> (forall v, List.In v vs -> dot (tnorm t) (vsub v (tv0 t)) <= 0) ->
  extent (tnorm t) vs (obb_depth t vs) /\ 0 <= obb_depth t vs /\ forall v, List.In v vs -> - obb_depth t vs <= dot (tnorm t) (vsub v (tv0 t)) <= 0.
Proof.
  intros D I0 B. pose proof (depth_fold (zTri3DDistFromPointToPlane t) vs 0) as (A & C & M). cbv zeta in *. fold (obb_depth t vs) in A, C, M. set (l := obb_depth t vs) in *. clearbody l.
  assert (M' : forall v, List.In v vs -> - l <= dot (tnorm t) (vsub v (tv0 t)) <= 0) by (intros v I; specialize (M v I); rewrite D in M; specialize (B v I); lra).
  split; [|split; [exact A|exact M']].
  assert (X : forall x y, dot (tnorm t) (vsub x y) = dot (tnorm t) (vsub x (tv0 t)) - dot (tnorm t) (vsub y (tv0 t))) by (intros; spec_unfold; ring).
  assert (Z : dot (tnorm t) (vsub (tv0 t) (tv0 t)) = 0) by (spec_unfold; ring).
  assert (Y : forall x y, List.In x vs -> List.In y vs -> dot (tnorm t) (vsub x y) <= l) by (intros x y Ix Iy; rewrite X; pose proof (M' x Ix); pose proof (M' y Iy); lra).
  destruct C as [C|(v & I & C)]; [exists (tv0 t), (tv0 t); split; [exact I0|]; split; [exact I0|]; split; [lra|exact Y]|].
  rewrite D in C. exists (tv0 t), v. split; [exact I0|]. split; [exact I|]. split; [rewrite X; lra|exact Y].
Qed.
Lemma bot_fold vs ts : forall b, match fold_left (fun b t => let l := obb_depth t vs in if match b with None => true | Some (_, h) => Rltb l h end then Some (t, l) else b) ts b with
  | None => b = None /\ ts = []
  | Some (t, l) => (b = Some (t, l) \/ (List.In t ts /\ l = obb_depth t vs)) /\ (forall t' l', b = Some (t', l') -> l <= l') /\ forall t', List.In t' ts -> l <= obb_depth t' vs
  end.
Proof.
  induction ts as [|a ts IH]; intros b; cbn [fold_left].
  - destruct b as [[t l]|]; [|auto]. split; [auto|]. split; [intros t' l' E; injection E as <- <-; lra|intros t' []].
  - cbv zeta. set (b1 := if match b with None => true | Some (_, h) => Rltb (obb_depth a vs) h end then Some (a, obb_depth a vs) else b). specialize (IH b1).
    destruct (fold_left _ ts b1) as [[t l]|].
    + destruct IH as (A & B & C). assert (D : b1 = Some (a, obb_depth a vs) /\ (forall t' l', b = Some (t', l') -> obb_depth a vs <= l') \/ (b1 = b /\ exists t' l', b = Some (t', l') /\ l' <= obb_depth a vs)).
      { unfold b1. destruct b as [[t' l']|]; [|left; split; [reflexivity|discriminate]]. destruct (Rltb_reflect (obb_depth a vs) l') as [H|H]; [left; split; [reflexivity|intros ? ? E; injection E as <- <-; lra]|right; split; [reflexivity|]; exists t', l'; split; [reflexivity|lra]]. }
      clearbody b1. destruct D as [(D1 & D2)|(D1 & t2 & l2 & D2 & D3)].
      * subst b1. split; [destruct A as [A|(A & A')]; [injection A as <- <-; right; split; [left; reflexivity|reflexivity]|right; split; [right; exact A|exact A']]|].
        specialize (B _ _ eq_refl). split; [intros t' l' E; specialize (D2 t' l' E); lra|]. intros t' [<-|I]; [exact B|apply C, I].
      * subst b1. split; [destruct A as [A|(A & A')]; [left; exact A|right; split; [right; exact A|exact A']]|]. split; [exact B|]. intros t' [<-|I]; [|apply C, I]. specialize (B _ _ D2). lra.
    + destruct IH as (A & _). exfalso. unfold b1 in A. destruct b as [[t' l']|]; [destruct (Rltb (obb_depth a vs) l')|]; discriminate.
Qed.
Lemma bot_ok ts vs : ts <> [] -> exists t, obb_bot ts vs = Some (t, obb_depth t vs) /\ List.In t ts /\ forall t', List.In t' ts -> obb_depth t vs <= obb_depth t' vs.
Proof.
  intros N. pose proof (bot_fold vs ts None) as H. unfold obb_bot. destruct (fold_left _ ts None) as [[t l]|]; [|destruct H as (_ & H); contradiction].
  destruct H as ([A|(A & ->)] & _ & C); [discriminate|]. exists t. auto.
Qed.

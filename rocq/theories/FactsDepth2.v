(** How deep two convex sets overlap: the search. *)
From Verif Require Import FactsGJK5 FactsTri2 FactsLin FactsClip4.
From Verif Require Export SpecDepth ModelDepth FactsDepth.
From Coq Require Import List Lra Lia.
Import ListNotations.
Open Scope R_scope.

(** ** The nearest face *)
Definition usable (t : tri3) : Prop := ~ negligible (tri_normal (tv0 t) (tv1 t) (tv2 t)).
Definition in_tri (t : tri3) : vec3 -> Prop := in_triangle (tv0 t) (tv1 t) (tv2 t).
Lemma dist_zero q : dist v3zero q = norm q.
Proof. unfold dist. replace (vsub v3zero q) with (vscale (-1) q) by (apply vec3_ext; vring). rewrite norm_scale, Rabs_left by lra. ring. Qed.
Lemma one_near t : usable t -> exists v, zTri3DClosest t v3zero = Some (norm v, v) /\ in_tri t v /\ forall q, in_tri t q -> norm v <= norm q.
Proof.
  intros U. destruct (tri3_closest t v3zero (or_introl U)) as (d & cp & E & (T & M) & ->). exists cp. rewrite E, dist_zero. split; [reflexivity|]. split; [exact T|].
  intros q Hq. specialize (M q Hq). rewrite !dist_zero in M. exact M.
Qed.
Lemma near_fold : forall fs v0 f0, Forall usable fs -> in_tri f0 v0 -> (forall q, in_tri f0 q -> norm v0 <= norm q) ->
  exists v f, pdNear (norm v0, v0, f0) fs = Some (norm v, v, f) /\ List.In f (f0 :: fs) /\ in_tri f v /\ forall t q, List.In t (f0 :: fs) -> in_tri t q -> norm v <= norm q.
Proof.
  induction fs as [|t fs IH]; intros v0 f0 U T M; cbn [pdNear].
  - exists v0, f0. split; [reflexivity|]. split; [left; reflexivity|]. split; [exact T|]. intros t q [<-|[]]; auto.
  - apply Forall_cons_iff in U as [Ut U]. destruct (one_near t Ut) as (v & E & Tv & Mv). rewrite E. cbn [fst]. destruct (Rltb_reflect (norm v) (norm v0)) as [L|L].
    + destruct (IH v t U Tv Mv) as (w & f & -> & I & Tw & Mw). exists w, f. split; [reflexivity|]. split; [right; exact I|]. split; [exact Tw|].
      intros t' q [<-|Ht] Hq; [|apply (Mw t' q Ht Hq)]. specialize (M q Hq). specialize (Mw t v (or_introl eq_refl) Tv). lra.
    + destruct (IH v0 f0 U T M) as (w & f & -> & I & Tw & Mw). exists w, f. split; [reflexivity|]. split; [destruct I as [<-|I]; [left; reflexivity|right; right; exact I]|]. split; [exact Tw|].
      intros t' q [<-|[<-|Ht]] Hq; [apply (Mw f0 q (or_introl eq_refl) Hq)| |apply (Mw t' q (or_intror Ht) Hq)]. specialize (Mv q Hq). specialize (Mw f0 v0 (or_introl eq_refl) T). lra.
Qed.
Lemma nearest_face fs : fs <> [] -> Forall usable fs -> exists v f, gjkPH3DClosest fs = Some (norm v, v, f) /\ List.In f fs /\ in_tri f v /\ forall t q, List.In t fs -> in_tri t q -> norm v <= norm q.
Proof.
  destruct fs as [|t fs]; [congruence|]. intros _ U. apply Forall_cons_iff in U as [Ut U]. destruct (one_near t Ut) as (v & E & T & M). cbn [gjkPH3DClosest]. rewrite E. apply near_fold; assumption.
Qed.
(** ** Slots *)
Definition good_slot (l1 l2 : list vec3) (s : pslot) : Prop := exists p1 p2, s = (vsub p1 p2, Some (p1, p2)) /\ List.In p1 l1 /\ List.In p2 l2.
Lemma good_diff l1 l2 sl : Forall (good_slot l1 l2) sl -> forall x, List.In x (map fst sl) -> difference l1 l2 x.
Proof. intros G x H. apply in_map_iff in H as (s & <- & Hs). rewrite Forall_forall in G. destruct (G s Hs) as (p1 & p2 & -> & A & B). exists p1, p2. auto. Qed.
Lemma diff_hull l1 l2 L : (forall x, List.In x L -> difference l1 l2 x) -> forall d, convex_hull L d -> exists x, convex_hull l1 x /\ exists y, convex_hull l2 y /\ x = vadd y d.
Proof.
  intros H d C. induction C as [p Hp|p q r _ (x & X & y & Y & E) _ (x' & X' & y' & Y' & E') (s0 & s1 & W & ->)].
  - destruct (H p Hp) as (a & b & A & B & ->). exists a. split; [constructor; exact A|]. exists b. split; [constructor; exact B|]. apply vec3_ext; vring.
  - exists (comb2 s0 s1 x x'). split; [apply (hull_mix _ x x'); auto; exists s0, s1; auto|]. exists (comb2 s0 s1 y y'). split; [apply (hull_mix _ y y'); auto; exists s0, s1; auto|]. subst x x'. apply vec3_ext; vring.
Qed.
Lemma eq_gap x y : vgap x y -> zVec3DEqual x y = true -> x = y.
Proof. intros [E|G] H; [exact E|exfalso]. apply vec3_equal in H as (A & B & C). unfold vsub in A, B, C. cbn [vx vy vz] in A, B, C. lra. Qed.
Lemma eq_self x : zVec3DEqual x x = true.
Proof. apply vec3_equal. unfold negligible, vsub. cbn [vx vy vz]. pose proof zTOL_pos. rewrite !Rminus_diag_eq by reflexivity. rewrite Rabs_R0. auto. Qed.
Lemma eq_norm x y : zVec3DEqual x y = true -> norm (vsub x y) <= 2 * zTOL.
Proof. intros H. apply vec3_equal in H. left. apply below_norm. exact H. Qed.
Lemma hull_more L L' x : incl L L' -> convex_hull L x -> convex_hull L' x.
Proof. intros I C. induction C as [p Hp|p q r _ IH1 _ IH2 S]; [constructor; auto|]. apply (hull_mix _ p q); assumption. Qed.
(** ** The loop *)
Section Loop.
  Variables (hull : list vec3 -> option (list tri3)) (l1 l2 : list vec3) (M : R).
  Hypotheses (N1 : l1 <> []) (N2 : l2 <> []) (H : right_hull (fun l => option_map (map corners) (hull l)) l1 l2) (G : distinct_differences l1 l2).
  Hypothesis B : forall x, difference l1 l2 x -> norm x <= M.
  Definition pd_ready (sl : list pslot) (vt : vec3) : Prop :=
    Forall (good_slot l1 l2) sl /\ NoDup (map fst sl) /\ convex_hull (map fst sl) v3zero /\ (4 <= length sl)%nat /\ exists w, List.In w (map fst sl) /\ forall x, difference l1 l2 x -> dot vt x <= dot vt w.
  Definition pd_result (sl : list pslot) (f : tri3) (v' : vec3) : Prop :=
    Forall (good_slot l1 l2) sl /\ NoDup (map fst sl) /\ well_shaped (tv0 f) (tv1 f) (tv2 f) /\
    List.In (tv0 f) (map fst sl) /\ List.In (tv1 f) (map fst sl) /\ List.In (tv2 f) (map fst sl) /\
    exists v, (v' = v \/ v' = vneg v) /\ in_tri f v /\ dot v (vsub (tv1 f) (tv0 f)) = 0 /\ dot v (vsub (tv2 f) (tv0 f)) = 0 /\
      (forall d, norm d < norm v -> convex_hull (map fst sl) d) /\ forall x, difference l1 l2 x -> dot v x <= dot v v + 4 * zTOL * M.
  Lemma M_pos : 0 <= M.
  Proof. destruct l1 as [|a ?]; [congruence|]. destruct l2 as [|b ?]; [congruence|]. eapply Rle_trans; [apply (norm_nonneg (vsub a b))|]. apply B. exists a, b. cbn. auto. Qed.
  Lemma surface_step sl vt fs : pd_ready sl vt -> hull (map fst sl) = Some fs -> exists v f, gjkPH3DClosest fs = Some (norm v, v, f) /\
    well_shaped (tv0 f) (tv1 f) (tv2 f) /\ List.In (tv0 f) (map fst sl) /\ List.In (tv1 f) (map fst sl) /\ List.In (tv2 f) (map fst sl) /\ in_tri f v /\ dot v (vsub (tv1 f) (tv0 f)) = 0 /\ dot v (vsub (tv2 f) (tv0 f)) = 0 /\
    (forall d, norm d < norm v -> convex_hull (map fst sl) d) /\ forall x, List.In x (map fst sl) -> dot v x <= dot v v.
  Proof.
    intros (GS & ND & OR & L4 & _) E. destruct (H (map fst sl) (map corners fs) ND ltac:(rewrite map_length; exact L4) (good_diff _ _ _ GS)) as (SF & W); [rewrite E; reflexivity|].
    assert (IC : forall t, List.In t fs -> List.In (tv0 t, tv1 t, tv2 t) (map corners fs)) by (intros t Ht; apply (in_map corners) in Ht; exact Ht).
    assert (NE : fs <> []) by (intros ->; destruct SF as (K & _); apply K; reflexivity).
    assert (U : Forall usable fs) by (apply Forall_forall; intros t Ht; apply (W _ _ _ (IC t Ht))).
    destruct (nearest_face fs NE U) as (v & f & EC & If & T & MN). exists v, f. split; [exact EC|]. split; [apply (W _ _ _ (IC f If))|].
    pose proof SF as (_ & X & _). destruct (X _ _ _ (IC f If)) as (A0 & A1 & A2 & _). split; [exact A0|]. split; [exact A1|]. split; [exact A2|]. split; [exact T|].
    assert (MN' : forall a b c q, List.In (a, b, c) (map corners fs) -> in_triangle a b c q -> norm v <= norm q).
    { intros a b c q Hq Tq. apply in_map_iff in Hq as (t & Et & Ht). injection Et as <- <- <-. apply (MN t q Ht Tq). }
    destruct (face_foot _ _ SF OR _ _ _ v (IC f If) T MN') as (P & Q & R). split; [exact P|]. split; [exact Q|]. split; [|exact R]. intros d. apply (ball_in _ _ SF OR _ MN').
  Qed.
  Lemma ready_insert sl vt v p1 p2 : pd_ready sl vt -> List.In p1 l1 -> List.In p2 l2 -> ~ List.In (vsub p1 p2) (map fst sl) -> (forall x, difference l1 l2 x -> dot v x <= dot v (vsub p1 p2)) -> pd_ready (gjkSlotListInsert sl (vsub p1 p2, Some (p1, p2))) v.
  Proof.
    intros (GS & ND & OR & L4 & _) I1 I2 N X. unfold pd_ready, gjkSlotListInsert. rewrite map_app. cbn [map fst]. split; [|split; [|split; [|split]]].
    - apply Forall_app. split; [exact GS|]. constructor; [|constructor]. exists p1, p2. auto.
    - apply (NoDup_Add (a := vsub p1 p2) (l := map fst sl)); [|split; assumption]. replace (map fst sl) with (map fst sl ++ []) at 1 by apply app_nil_r. apply Add_app.
    - apply (hull_more (map fst sl)); [apply incl_appl, incl_refl|exact OR].
    - rewrite app_length. apply Nat.le_trans with (1 := L4). apply Nat.le_add_r.
    - exists (vsub p1 p2). split; [apply in_or_app; right; left; reflexivity|exact X].
  Qed.
  Lemma support_max v : exists p1 p2, gjkSupportMap l1 l2 (vneg v) = Some (p1, p2, vsub p1 p2) /\ List.In p1 l1 /\ List.In p2 l2 /\ forall x, difference l1 l2 x -> dot v x <= dot v (vsub p1 p2).
  Proof.
    destruct (gjk_support l1 l2 (vneg v) N1 N2) as (p1 & p2 & E & A & C & X). exists p1, p2. repeat split; auto. intros x Hx. specialize (X x Hx).
    replace (dot x (vneg v)) with (- dot v x) in X by vring. replace (dot (vsub p1 p2) (vneg v)) with (- dot v (vsub p1 p2)) in X by vring. lra.
  Qed.
  Lemma known_in sl w : Forall (good_slot l1 l2) sl -> difference l1 l2 w -> existsb (fun c : pslot => zVec3DEqual w (fst c)) sl = true <-> List.In w (map fst sl).
  Proof.
    intros GS D. rewrite existsb_exists. split.
    - intros (s & Hs & E). rewrite (eq_gap w (fst s)); [apply in_map; exact Hs| |exact E]. apply G; [exact D|]. apply (good_diff _ _ _ GS). apply in_map, Hs.
    - intros K. apply in_map_iff in K as (s & <- & Hs). exists s. split; [exact Hs|apply eq_self].
  Qed.
  Lemma loop_result : forall fuel sl vt, pd_ready sl vt -> match gjkPDLoop hull l1 l2 fuel sl vt with PUndef => False | PDone sl' f v => pd_result sl' f v /\ incl (map fst sl) (map fst sl') | _ => True end.
  Proof.
    induction fuel as [|fuel IH]; intros sl vt RD; cbn [gjkPDLoop]; [exact I|].
    destruct (hull (map fst sl)) as [fs|] eqn:E; [|exact I]. destruct (surface_step sl vt fs RD E) as (v & f & -> & W & A0 & A1 & A2 & T & P & Q & BI & X).
    pose proof M_pos as MP. pose proof zTOL_pos as TP. pose proof RD as (GS & ND & OR & _ & w0 & W0 & WX).
    destruct (zVec3DEqual v vt) eqn:EQ.
    - split; [|apply incl_refl]. split; [exact GS|]. split; [exact ND|]. split; [exact W|]. split; [exact A0|]. split; [exact A1|]. split; [exact A2|]. exists v. split; [left; reflexivity|]. split; [exact T|]. split; [exact P|]. split; [exact Q|]. split; [exact BI|].
      intros x Hx. apply eq_norm in EQ. specialize (WX x Hx). specialize (X w0 W0). pose proof (B x Hx) as Bx. pose proof (B w0 (good_diff _ _ _ GS w0 W0)) as Bw.
      pose proof (dot_le_norm (vsub v vt) x) as C1. pose proof (dot_le_norm (vsub v vt) (vneg w0)) as C2.
      replace (norm (vneg w0)) with (norm w0) in C2 by (replace (vneg w0) with (vscale (-1) w0) by (apply vec3_ext; vring); rewrite norm_scale, Rabs_left by lra; ring).
      replace (dot (vsub v vt) x) with (dot v x - dot vt x) in C1 by vring. replace (dot (vsub v vt) (vneg w0)) with (dot vt w0 - dot v w0) in C2 by vring.
      assert (K1 : norm (vsub v vt) * norm x <= 2 * zTOL * M) by (apply Rmult_le_compat; try apply norm_nonneg; assumption).
      assert (K2 : norm (vsub v vt) * norm w0 <= 2 * zTOL * M) by (apply Rmult_le_compat; try apply norm_nonneg; assumption). lra.
    - zvg. destruct (support_max v) as (p1 & p2 & -> & I1 & I2 & SM). assert (DW : difference l1 l2 (vsub p1 p2)) by (exists p1, p2; auto).
      match goal with |- context [existsb ?g sl] => destruct (existsb g sl) eqn:KN end.
      + assert (KI : List.In (vsub p1 p2) (map fst sl)) by (apply (known_in sl _ GS DW); exact KN). clear KN. split; [|apply incl_refl]. split; [exact GS|]. split; [exact ND|]. split; [exact W|]. split; [exact A0|]. split; [exact A1|]. split; [exact A2|]. exists v. split; [right; reflexivity|]. split; [exact T|]. split; [exact P|]. split; [exact Q|]. split; [exact BI|].
        intros x Hx. specialize (SM x Hx). specialize (X _ KI). assert (0 <= 4 * zTOL * M) by (apply Rmult_le_pos; lra). lra.
      + assert (NI : ~ List.In (vsub p1 p2) (map fst sl)). { intros K. apply (known_in sl _ GS DW) in K. exact (Bool.diff_true_false (eq_trans (eq_sym K) KN)). }
        specialize (IH _ v (ready_insert sl vt v p1 p2 RD I1 I2 NI SM)). destruct (gjkPDLoop hull l1 l2 fuel (gjkSlotListInsert sl (vsub p1 p2, Some (p1, p2))) v) as [| | |sl' f' v']; try exact IH.
        destruct IH as (IR & IC). split; [exact IR|]. intros y Hy. apply IC. unfold gjkSlotListInsert. rewrite map_app. apply in_or_app. left. exact Hy.
  Qed.
End Loop.

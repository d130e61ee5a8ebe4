(** How deep two convex sets overlap: the pair of points, and the end of the search. *)
From Verif Require Import FactsGJK5 FactsTri2 FactsLin.
From Verif Require Export FactsDepth2.
From Coq Require Import List Lra Lia.
Import ListNotations.
Open Scope R_scope.

(** ** The sum over the corners *)
Definition pp (s : pslot) : vec3 * vec3 := match snd s with Some p => p | None => (v3zero, v3zero) end.
Fixpoint cw (w : vec3) (cs : list (vec3 * R)) : R := match cs with [] => 0 | (v, l) :: r => (if zVec3DEqual v w then l else 0) + cw w r end.
Fixpoint cn (w : vec3) (cs : list (vec3 * R)) : nat := match cs with [] => 0 | (v, l) :: r => (if zVec3DEqual v w then 1 else 0) + cn w r end%nat.
Lemma cn_zero w cs : cn w cs = 0%nat -> cw w cs = 0.
Proof. induction cs as [|(v, l) r IH]; cbn [cn cw]; [reflexivity|]. destruct (zVec3DEqual v w); [discriminate|]. intros E. rewrite IH by exact E. ring. Qed.
Lemma some3 {A B C} (a a' : A) (b b' : B) (c c' : C) : a = a' -> b = b' -> c = c' -> Some (a, b, c) = Some (a', b', c').
Proof. intros -> -> ->. reflexivity. Qed.
Lemma corners_sum s : snd s <> None -> forall cs c1 c2 j, pdCorners s cs (c1, c2, j) = Some (vadd c1 (vscale (cw (fst s) cs) (fst (pp s))), vadd c2 (vscale (cw (fst s) cs) (snd (pp s))), (j + cn (fst s) cs)%nat).
Proof.
  intros N. destruct s as (w & [(p1, p2)|]); [|cbn in N; congruence]. unfold pp. cbn [fst snd] in *. induction cs as [|(v, l) r IH]; intros c1 c2 j; cbn [pdCorners cw cn fst snd].
  - apply some3; [apply vec3_ext; vring|apply vec3_ext; vring|lia].
  - destruct (zVec3DEqual v w); rewrite IH; zvg; (apply some3; [apply vec3_ext; vring|apply vec3_ext; vring|lia]).
Qed.
Fixpoint tot1 (sl : list pslot) (cs : list (vec3 * R)) : vec3 := match sl with [] => v3zero | s :: r => vadd (vscale (cw (fst s) cs) (fst (pp s))) (tot1 r cs) end.
Fixpoint tot2 (sl : list pslot) (cs : list (vec3 * R)) : vec3 := match sl with [] => v3zero | s :: r => vadd (vscale (cw (fst s) cs) (snd (pp s))) (tot2 r cs) end.
Fixpoint cnt (sl : list pslot) (cs : list (vec3 * R)) : nat := match sl with [] => 0 | s :: r => cn (fst s) cs + cnt r cs end%nat.
Lemma cnt_zero cs sl : cnt sl cs = 0%nat -> tot1 sl cs = v3zero /\ tot2 sl cs = v3zero.
Proof. induction sl as [|s r IH]; cbn [cnt tot1 tot2]; [auto|]. intros E. destruct IH as [-> ->]; [lia|]. rewrite cn_zero by lia. split; apply vec3_ext; vring. Qed.
Lemma sum_all cs : forall sl c1 c2 j, Forall (fun s : pslot => snd s <> None) sl -> (j + cnt sl cs = 3)%nat -> pdSum sl cs (c1, c2, j) = Some (vadd c1 (tot1 sl cs), vadd c2 (tot2 sl cs)).
Proof.
  induction sl as [|s r IH]; intros c1 c2 j F J; cbn [pdSum tot1 tot2 cnt] in *.
  - cbn [fst]. f_equal. f_equal; apply vec3_ext; vring.
  - apply Forall_cons_iff in F as [Fs F]. rewrite corners_sum by exact Fs. cbn [snd fst]. destruct (Nat.eqb_spec (j + cn (fst s) cs) 3) as [E|E].
    + destruct (cnt_zero cs r) as [-> ->]; [lia|]. f_equal. f_equal; apply vec3_ext; vring.
    + rewrite IH by (auto; lia). f_equal. f_equal; apply vec3_ext; vring.
Qed.
(** one corner *)
Lemma cw_cons w v l r : cw w ((v, l) :: r) = cw w [(v, l)] + cw w r. Proof. cbn [cw]. ring. Qed.
Lemma tot_cons v l r sl : tot1 sl ((v, l) :: r) = vadd (tot1 sl [(v, l)]) (tot1 sl r) /\ tot2 sl ((v, l) :: r) = vadd (tot2 sl [(v, l)]) (tot2 sl r) /\ cnt sl ((v, l) :: r) = (cnt sl [(v, l)] + cnt sl r)%nat.
Proof.
  induction sl as [|s sl (I1 & I2 & I3)]; [repeat split; cbn [tot1 tot2]; apply vec3_ext; vring|]. cbn [tot1 tot2 cnt]. rewrite I1, I2, I3, !(cw_cons _ v l r). cbn [cn]. repeat split; [apply vec3_ext; vring|apply vec3_ext; vring|lia].
Qed.
Lemma corner_once l1 l2 v l : distinct_differences l1 l2 -> difference l1 l2 v -> forall sl, Forall (good_slot l1 l2) sl -> NoDup (map fst sl) ->
  (List.In v (map fst sl) -> exists p1 p2, List.In p1 l1 /\ List.In p2 l2 /\ v = vsub p1 p2 /\ cnt sl [(v, l)] = 1%nat /\ tot1 sl [(v, l)] = vscale l p1 /\ tot2 sl [(v, l)] = vscale l p2) /\
  (~ List.In v (map fst sl) -> cnt sl [(v, l)] = 0%nat).
Proof.
  intros G D. induction sl as [|s sl IH]; intros GS ND; [split; [intros []|reflexivity]|]. apply Forall_cons_iff in GS as [Gs GS]. cbn [map] in ND. apply NoDup_cons_iff in ND as [NI ND]. destruct (IH GS ND) as [IH1 IH2]. clear IH.
  destruct Gs as (p1 & p2 & -> & A1 & A2). cbn [map fst] in *. assert (DW : difference l1 l2 (vsub p1 p2)) by (exists p1, p2; auto). cbn [cnt tot1 tot2 cw cn fst pp snd].
  destruct (zVec3DEqual v (vsub p1 p2)) eqn:E.
  - apply eq_gap in E; [|apply G; assumption]. subst v. specialize (IH2 NI). destruct (cnt_zero _ _ IH2) as [-> ->]. rewrite IH2. split; [|intros K; exfalso; apply K; left; reflexivity].
    intros _. exists p1, p2. repeat split; auto; apply vec3_ext; vring.
  - assert (NE : vsub p1 p2 <> v) by (intros <-; rewrite eq_self in E; discriminate). split.
    + intros [K|K]; [contradiction|]. destruct (IH1 K) as (q1 & q2 & Q1 & Q2 & EV & -> & -> & ->). exists q1, q2. repeat split; auto; apply vec3_ext; vring.
    + intros K. rewrite IH2 by (intros Q; apply K; right; exact Q). reflexivity.
Qed.
(** ** The pair of points *)
Lemma well_distinct a b c : well_shaped a b c -> a <> b /\ b <> c /\ a <> c.
Proof.
  pose proof zTOL_pos as TP. assert (Z : forall x, negligible (vsub x x)). { intros x. unfold negligible, vsub. cbn [vx vy vz]. rewrite !Rminus_diag_eq by reflexivity. rewrite Rabs_R0. auto. }
  intros (A & B & C & _). repeat split; intros ->; auto.
Qed.
Lemma hull3 L s0 s1 s2 a b c : weights3 s0 s1 s2 -> List.In a L -> List.In b L -> List.In c L -> convex_hull L (comb3 s0 s1 s2 a b c).
Proof.
  intros (A0 & A1 & A2 & S) Ia Ib Ic. replace (comb3 s0 s1 s2 a b c) with (wsum [s0; s1; s2] [a; b; c]) by (cbn [wsum]; apply vec3_ext; vring). apply hull_wsum; [|cbn [total]; lra].
  apply Forall2_cons; [split; [exact A0|right; apply hull_point; exact Ia]|]. apply Forall2_cons; [split; [exact A1|right; apply hull_point; exact Ib]|]. apply Forall2_cons; [split; [exact A2|right; apply hull_point; exact Ic]|]. apply Forall2_nil.
Qed.
Lemma pair_result l1 l2 M sl f v' : distinct_differences l1 l2 -> pd_result l1 l2 M sl f v' -> exists c1 c2, gjkPDPair sl f v' = Some (c1, c2) /\ convex_hull l1 c1 /\ convex_hull l2 c2 /\ depth_vector (4 * zTOL * M) l1 l2 (vsub c1 c2).
Proof.
  intros G (GS & ND & W & A0 & A1 & A2 & v & V & (s0 & s1 & s2 & WT & E) & P & Q & BI & X).
  assert (LS : exists d cp, zTri3DLinScale f v' = Some (d, (s0, s1, s2), cp)).
  { exists 0, v'. pose proof WT as (W0 & W1 & W2 & WS). apply lin_inside; auto. split; [exact WS|]. destruct V as [->| ->].
    - exists v3zero. split; [vring|]. split; [vring|]. rewrite E. apply vec3_ext; vring.
    - exists (vscale (-2) v). rewrite !dot_scl, P, Q. split; [ring|]. split; [ring|]. rewrite <- E. apply vec3_ext; vring. }
  destruct LS as (d & cp & LS). unfold gjkPDPair. rewrite LS. pose proof (good_diff _ _ _ GS) as GD.
  destruct (corner_once l1 l2 (tv0 f) s0 G (GD _ A0) sl GS ND) as [K0 _]. destruct (corner_once l1 l2 (tv1 f) s1 G (GD _ A1) sl GS ND) as [K1 _]. destruct (corner_once l1 l2 (tv2 f) s2 G (GD _ A2) sl GS ND) as [K2 _].
  destruct (K0 A0) as (a1 & a2 & Ia1 & Ia2 & Ea & Na & Ta & Ua). destruct (K1 A1) as (b1 & b2 & Ib1 & Ib2 & Eb & Nb & Tb & Ub). destruct (K2 A2) as (e1 & e2 & Ie1 & Ie2 & Ee & Ne & Te & Ue).
  destruct (tot_cons (tv0 f) s0 [(tv1 f, s1); (tv2 f, s2)] sl) as (T1 & T2 & T3). destruct (tot_cons (tv1 f) s1 [(tv2 f, s2)] sl) as (T1' & T2' & T3').
  rewrite sum_all; [|apply Forall_forall; intros s Hs; rewrite Forall_forall in GS; destruct (GS s Hs) as (p1 & p2 & -> & _); discriminate|rewrite T3, T3', Na, Nb, Ne; reflexivity].
  rewrite T1, T2, T1', T2', Ta, Tb, Te, Ua, Ub, Ue.
  replace (vadd v3zero (vadd (vscale s0 a1) (vadd (vscale s1 b1) (vscale s2 e1)))) with (comb3 s0 s1 s2 a1 b1 e1) by (apply vec3_ext; vring).
  replace (vadd v3zero (vadd (vscale s0 a2) (vadd (vscale s1 b2) (vscale s2 e2)))) with (comb3 s0 s1 s2 a2 b2 e2) by (apply vec3_ext; vring).
  exists (comb3 s0 s1 s2 a1 b1 e1), (comb3 s0 s1 s2 a2 b2 e2). split; [reflexivity|]. split; [apply hull3; assumption|]. split; [apply hull3; assumption|].
  replace (vsub (comb3 s0 s1 s2 a1 b1 e1) (comb3 s0 s1 s2 a2 b2 e2)) with v by (rewrite E, Ea, Eb, Ee; apply vec3_ext; vring).
  split.
  - assert (HD : forall x1 x2, convex_hull l1 x1 -> convex_hull l2 x2 -> - (dot v v + 4 * zTOL * M) <= dot (vsub x1 x2) (vneg v)).
    { apply hull_difference. intros x Hx. specialize (X x Hx). replace (dot x (vneg v)) with (- dot v x) by vring. lra. }
    intros x1 x2 H1 H2. specialize (HD x1 x2 H1 H2). replace (dot (vsub x1 x2) (vneg v)) with (- (dot v (vsub x1 (vadd x2 v)) + dot v v)) in HD by vring. lra.
  - intros e He. apply (diff_hull l1 l2 (map fst sl) GD), BI, He.
Qed.
(** ** The loop ends *)
Definition vdec : forall a b : vec3, {a = b} + {a <> b}.
Proof. decide equality; apply Req_EM_T. Defined.
Definition pairs (l1 l2 : list vec3) : list vec3 := map (fun ab => vsub (fst ab) (snd ab)) (list_prod l1 l2).
Definition missing (L ws : list vec3) : nat := length (filter (fun x => if in_dec vdec x ws then false else true) L).
Lemma missing_less L ws w : List.In w L -> ~ List.In w ws -> (missing L (ws ++ [w]) < missing L ws)%nat.
Proof.
  assert (LE : forall L, (missing L (ws ++ [w]) <= missing L ws)%nat). { unfold missing. induction L0 as [|x L0 IH]; [auto|]. cbn [filter]. destruct (in_dec vdec x ws) as [I|I]; destruct (in_dec vdec x (ws ++ [w])) as [J|J]; cbn [length]; try lia. exfalso. apply J, in_or_app. left. exact I. }
  intros I N. induction L as [|x L IH]; [destruct I|]. specialize (LE L). unfold missing in *. cbn [filter]. destruct (vdec x w) as [->|NE].
  - destruct (in_dec vdec w ws) as [K|_]; [contradiction|]. destruct (in_dec vdec w (ws ++ [w])) as [_|K]; [cbn [length]; lia|]. exfalso. apply K, in_or_app. right. left. reflexivity.
  - destruct I as [I|I]; [congruence|]. specialize (IH I). destruct (in_dec vdec x ws) as [K|K]; destruct (in_dec vdec x (ws ++ [w])) as [J|J]; cbn [length]; try lia. exfalso. apply J, in_or_app. left. exact K.
Qed.
Lemma support_mem l1 l2 v p1 p2 w : gjkSupportMap l1 l2 v = Some (p1, p2, w) -> List.In w (pairs l1 l2) /\ List.In p1 l1 /\ List.In p2 l2 /\ w = vsub p1 p2.
Proof.
  intros E. assert (N1 : l1 <> []) by (intros ->; discriminate E). assert (N2 : l2 <> []). { intros ->. unfold gjkSupportMap in E. destruct (supportMap l1 (zVec3DRev v)); discriminate E. }
  destruct (gjk_support l1 l2 v N1 N2) as (q1 & q2 & E' & I1 & I2 & _). rewrite E in E'. injection E' as -> -> ->. split; [|auto].
  apply in_map_iff. exists (q1, q2). split; [reflexivity|]. apply in_prod; assumption.
Qed.
Lemma loop_stops hull l1 l2 : forall fuel sl vt, (missing (pairs l1 l2) (map fst sl) < fuel)%nat -> gjkPDLoop hull l1 l2 fuel sl vt <> PFuel.
Proof.
  induction fuel as [|fuel IH]; intros sl vt L; [lia|]. cbn [gjkPDLoop]. destruct (hull (map fst sl)) as [fs|]; [|discriminate]. destruct (gjkPH3DClosest fs) as [((d, v), f)|]; [|discriminate].
  destruct (zVec3DEqual v vt); [discriminate|]. destruct (gjkSupportMap l1 l2 (zVec3DRev v)) as [((p1, p2), w)|] eqn:E; [|discriminate].
  destruct (support_mem _ _ _ _ _ _ E) as (IW & _).
  match goal with |- context [existsb ?g sl] => destruct (existsb g sl) eqn:KN end; [discriminate|]. apply IH. unfold gjkSlotListInsert. rewrite map_app. cbn [map fst].
  assert (N : ~ List.In w (map fst sl)). { intros K. apply in_map_iff in K as (s & Es & Hs). assert (Q : existsb (fun c : pslot => zVec3DEqual w (fst c)) sl = true) by (apply existsb_exists; exists s; rewrite Es; split; [exact Hs|apply eq_self]). exact (Bool.diff_true_false (eq_trans (eq_sym Q) KN)). }
  eapply Nat.lt_le_trans; [apply (missing_less (pairs l1 l2) (map fst sl) w IW N)|]. apply Nat.lt_succ_r. exact L.
Qed.
Lemma loop_enough hull l1 l2 fuel sl vt : (length l1 * length l2 < fuel)%nat -> gjkPDLoop hull l1 l2 fuel sl vt <> PFuel.
Proof.
  intros L. apply loop_stops. eapply Nat.le_lt_trans; [|exact L].
  assert (LE : forall K, (missing K (map fst sl) <= length K)%nat). { unfold missing. induction K as [|x K IH]; cbn [filter length]; [lia|]. destruct (in_dec vdec x (map fst sl)); cbn [length]; lia. }
  specialize (LE (pairs l1 l2)). unfold pairs in LE at 2. rewrite map_length, prod_length in LE. exact LE.
Qed.

(** Planar hull: gift wrapping over a sorted list *)
From Verif Require Import Base Spec SpecGeom SpecHull ModelVec ModelElem ModelHull FactsVec FactsAlg FactsElem.
From Coq Require Import List Lia Lra Sorting.Sorted Sorting.Permutation.
Import ListNotations.
Open Scope R_scope.

(** the angle of a direction in the right half plane orders as the cross product *)
Definition lexpos (x y : R) : Prop := 0 < x \/ (x = 0 /\ 0 < y).
Lemma ang_range x y : lexpos x y -> - (PI / 2) < atan2 y x <= PI / 2.
Proof.
  intros H. pose proof PI_RGT_0. unfold atan2. destruct H as [H|[-> H]].
  - rewrite (proj2 (Rltb_true 0 x) H). pose proof (atan_bound (y / x)). lra.
  - replace (Rltb 0 0) with false by (symmetry; apply Rltb_false; lra). rewrite (proj2 (Rltb_true 0 y) H). lra.
Qed.
Lemma lexpos_hyp x y : lexpos x y -> x <> 0 \/ y <> 0.
Proof. intros [H|[_ H]]; [left|right]; lra. Qed.
Lemma ang_le x y x' y' : lexpos x y -> lexpos x' y' -> (atan2 y x <= atan2 y' x' <-> 0 <= x * y' - y * x').
Proof.
  intros H H'. pose proof (ang_range _ _ H) as R. pose proof (ang_range _ _ H') as R'. pose proof (hyp_pos x y (lexpos_hyp _ _ H)) as P. pose proof (hyp_pos x' y' (lexpos_hyp _ _ H')) as P'.
  destruct (atan2_polar y x) as [E1 E2]. destruct (atan2_polar y' x') as [E3 E4]. set (a := atan2 y x) in *. set (b := atan2 y' x') in *. set (h := hyp x y) in *. set (k := hyp x' y') in *.
  assert (E : x * y' - y * x' = h * k * sin (b - a)). { rewrite sin_minus. rewrite E1, E2, E3, E4. ring. }
  rewrite E. assert (HK : 0 < h * k) by (apply Rmult_lt_0_compat; assumption). split; intros L.
  - apply Rmult_le_pos; [lra|]. apply sin_ge_0; lra.
  - destruct (Rle_or_lt a b) as [G|G]; [exact G|]. exfalso. assert (sin (b - a) < 0) by (apply sin_lt_0_var; lra). nra.
Qed.
Lemma ang_lt x y x' y' : lexpos x y -> lexpos x' y' -> (atan2 y x < atan2 y' x' <-> 0 < x * y' - y * x').
Proof.
  intros H H'. pose proof (ang_le x' y' x y H' H) as E. split; intros L.
  - destruct (Rlt_or_le 0 (x * y' - y * x')) as [G|G]; [exact G|]. assert (atan2 y' x' <= atan2 y x) by (apply E; lra). lra.
  - destruct (Rlt_or_le (atan2 y x) (atan2 y' x')) as [G|G]; [exact G|]. apply E in G. lra.
Qed.

Section Frame.
Variables s0 s1 : vec3.
Definition cx (p : vec3) : R := dot p s0.
Definition cy (p : vec3) : R := dot p s1.
Definition turn (a b c : vec3) : R := (cx b - cx a) * (cy c - cy a) - (cy b - cy a) * (cx c - cx a).
Definition before (a b : vec3) : Prop := lexpos (cx b - cx a) (cy b - cy a).
Definition ang (p0 p : vec3) : R := atan2 (zVec3DInnerProd (zVec3DSub p p0) s1) (zVec3DInnerProd (zVec3DSub p p0) s0).
Lemma ang_cxy p0 p : ang p0 p = atan2 (cy p - cy p0) (cx p - cx p0).
Proof. unfold ang, cx, cy. zvg. f_equal; spec_unfold; ring. Qed.
Lemma ang_turn p0 a b : before p0 a -> before p0 b -> (ang p0 a <= ang p0 b <-> turn p0 b a <= 0).
Proof. intros A B. rewrite !ang_cxy, ang_le by assumption. unfold turn. split; lra. Qed.
Lemma ang_turn_lt p0 a b : before p0 a -> before p0 b -> (ang p0 a < ang p0 b <-> turn p0 b a < 0).
Proof. intros A B. rewrite !ang_cxy, ang_lt by assumption. unfold turn. split; lra. Qed.
Lemma before_trans a b c : before a b -> before b c -> before a c.
Proof. unfold before, lexpos. intros [H|[H H1]] [K|[K K1]]; [left|left|left|right]; lra. Qed.
Lemma before_irr a : ~ before a a.
Proof. intros [H|[_ H]]; lra. Qed.
(** the list may be told apart *)
Definition tells (l : list vec3) : Prop := forall p q, List.In p l -> List.In q l -> (p <> q -> zVec3DIsTiny (zVec3DSub p q) = false) /\ (cx p = cx q -> cy p = cy q -> p = q).
Lemma tiny_self p : zVec3DIsTiny (zVec3DSub p p) = true.
Proof.
  unfold zVec3DIsTiny, zVec3DIsTol, zVec3DSub. cbn [vx vy vz]. pose proof zTOL_pos. rewrite !Rminus_eq_0. unfold zIsTol. rewrite Rabs_R0.
  replace (Rltb 0 zTOL) with true by (symmetry; apply Rltb_true; assumption). reflexivity.
Qed.
Lemma vec_dec (p q : vec3) : p = q \/ p <> q.
Proof. destruct (Req_dec (vx p) (vx q)), (Req_dec (vy p) (vy q)), (Req_dec (vz p) (vz q)); [left; apply vec3_ext; assumption|..]; right; intros ->; contradiction. Qed.
Definition after (p0 : vec3) (l : list vec3) : Prop := forall q, List.In q l -> q = p0 \/ (q <> p0 /\ before p0 q /\ zVec3DIsTiny (zVec3DSub q p0) = false).
Lemma after_cons p0 q l : after p0 (q :: l) -> after p0 l.
Proof. intros H x I. apply H. right. exact I. Qed.
Lemma pick_found p0 : forall l b rb, after p0 l -> before p0 b ->
  exists b' r', ch2d_pick s0 s1 p0 (ang p0 b) (b :: rb) l = b' :: r' /\ before p0 b' /\ ang p0 b <= ang p0 b' /\
    (forall q, List.In q l -> q = p0 \/ ang p0 q <= ang p0 b') /\
    ((exists pre, l = pre ++ b' :: r' /\ forall q, List.In q r' -> q = p0 \/ ang p0 q < ang p0 b') \/
     (b' = b /\ r' = rb /\ forall q, List.In q l -> q = p0 \/ ang p0 q < ang p0 b)).
Proof.
  induction l as [|p l IH]; intros b rb A B; cbn [ch2d_pick].
  - exists b, rb. split; [reflexivity|]. split; [exact B|]. split; [lra|]. split; [intros q []|]. right. split; [reflexivity|]. split; [reflexivity|]. intros q [].
  - fold (ang p0 p). pose proof (after_cons _ _ _ A) as A'. destruct (A p (or_introl eq_refl)) as [->|(NE & Bp & T)].
    + rewrite tiny_self. cbn [negb andb]. destruct (IH b rb A' B) as (b' & r' & E & B' & L & M & S). exists b', r'. split; [exact E|]. split; [exact B'|]. split; [exact L|].
      split; [intros q [<-|I]; [left; reflexivity|apply M, I]|]. destruct S as [(pre & -> & S)|(-> & -> & S)].
      * left. exists (p0 :: pre). split; [reflexivity|exact S].
      * right. split; [reflexivity|]. split; [reflexivity|]. intros q [<-|I]; [left; reflexivity|apply S, I].
    + rewrite T. cbn [negb andb]. destruct (Rleb (ang p0 b) (ang p0 p)) eqn:C.
      * apply Rleb_true in C. destruct (IH p l A' Bp) as (b' & r' & E & B' & L & M & S). exists b', r'. split; [exact E|]. split; [exact B'|]. split; [lra|].
        split; [intros q [<-|I]; [right; exact L|apply M, I]|]. left. destruct S as [(pre & -> & S)|(-> & -> & S)].
        -- exists (p :: pre). split; [reflexivity|exact S].
        -- exists []. split; [reflexivity|exact S].
      * apply Rleb_false in C. destruct (IH b rb A' B) as (b' & r' & E & B' & L & M & S). exists b', r'. split; [exact E|]. split; [exact B'|]. split; [exact L|].
        split; [intros q [<-|I]; [right; lra|apply M, I]|]. destruct S as [(pre & -> & S)|(-> & -> & S)].
        -- left. exists (p :: pre). split; [reflexivity|exact S].
        -- right. split; [reflexivity|]. split; [reflexivity|]. intros q [<-|I]; [right; lra|apply S, I].
Qed.
Lemma pick_start p0 best : forall l, after p0 l -> (exists q, List.In q l /\ q <> p0) ->
  exists pre b r, l = pre ++ b :: r /\ ch2d_pick s0 s1 p0 (- (PI / 2)) best l = b :: r /\ before p0 b /\ (forall q, List.In q l -> turn p0 b q <= 0) /\ (forall q, List.In q r -> q <> p0 -> turn p0 b q < 0).
Proof.
  induction l as [|p l IH]; intros A (q0 & I0 & N0); [destruct I0|]. cbn [ch2d_pick]. fold (ang p0 p). pose proof (after_cons _ _ _ A) as A'.
  assert (Z : forall b, turn p0 b p0 = 0) by (intros; unfold turn; ring).
  destruct (A p (or_introl eq_refl)) as [->|(NE & Bp & T)].
  - rewrite tiny_self. cbn [negb andb]. destruct (IH A') as (pre & b & r & -> & E & B & M & S). { exists q0. split; [|exact N0]. destruct I0 as [<-|I]; [contradiction|exact I]. }
    exists (p0 :: pre), b, r. split; [reflexivity|]. split; [exact E|]. split; [exact B|]. split; [|exact S]. intros q [<-|I]; [rewrite Z; lra|apply M, I].
  - rewrite T. cbn [negb andb]. pose proof (ang_range _ _ Bp) as R. rewrite <- ang_cxy in R. replace (Rleb (- (PI / 2)) (ang p0 p)) with true by (symmetry; apply Rleb_true; lra).
    destruct (pick_found p0 l p l A' Bp) as (b & r & E & B & L & M & S).
    assert (TL : forall q, List.In q l -> turn p0 b q <= 0).
    { intros q I. destruct (M q I) as [->|K]; [rewrite Z; lra|]. destruct (A' q I) as [->|(_ & Bq & _)]; [rewrite Z; lra|]. apply ang_turn; assumption. }
    assert (W : exists pre, p :: l = pre ++ b :: r /\ forall q, List.In q r -> q = p0 \/ ang p0 q < ang p0 b).
    { destruct S as [(pre & El & S)|(-> & -> & S)]; [exists (p :: pre); rewrite El; split; [reflexivity|exact S]|exists []; split; [reflexivity|exact S]]. }
    destruct W as (pre & El & S'). exists pre, b, r. split; [exact El|]. split; [exact E|]. split; [exact B|]. split.
    + intros q [<-|I]; [|apply TL, I]. apply ang_turn; assumption.
    + intros q I NQ. destruct (S' q I) as [->|K]; [contradiction|]. assert (J : List.In q (p :: l)) by (rewrite El; apply in_or_app; right; right; exact I).
      destruct (A q J) as [->|(_ & Bq & _)]; [contradiction|]. apply ang_turn_lt; assumption.
Qed.
(** a point left of [b] and below the edge into it is below the edge out of it *)
Lemma corner a b c q : before a b -> before b c -> turn a b c <= 0 -> turn a b q <= 0 -> (q = b \/ before q b) -> turn b c q <= 0.
Proof.
  intros AB BC T1 T2 [->|Q]; [unfold turn; lra|]. unfold before, lexpos, turn in *.
  set (e1 := cx b - cx a) in *. set (f1 := cy b - cy a) in *. set (e2 := cx c - cx b) in *. set (f2 := cy c - cy b) in *.
  replace (cx c - cx a) with (e1 + e2) in T1 by (unfold e1, e2; ring). replace (cy c - cy a) with (f1 + f2) in T1 by (unfold f1, f2; ring).
  set (g := cx q - cx b) in *. set (h := cy q - cy b) in *. replace (cx b - cx q) with (- g) in Q by (unfold g; ring). replace (cy b - cy q) with (- h) in Q by (unfold h; ring).
  replace (cx q - cx a) with (e1 + g) in T2 by (unfold e1, g; ring). replace (cy q - cy a) with (f1 + h) in T2 by (unfold f1, h; ring). clearbody e1 f1 e2 f2 g h.
  assert (U1 : e1 * f2 - f1 * e2 <= 0) by lra. assert (U2 : e1 * h - f1 * g <= 0) by lra.
  assert (Ge : g <= 0) by lra. assert (E2 : 0 <= e2) by lra.
  destruct AB as [P|[P1 P2]].
  - assert (I : e1 * (e2 * h - f2 * g) = (e1 * h - f1 * g) * e2 - (e1 * f2 - f1 * e2) * g) by ring.
    assert (0 <= - (e1 * h - f1 * g) * e2) by (apply Rmult_le_pos; lra). assert (0 <= - (e1 * f2 - f1 * e2) * - g) by (apply Rmult_le_pos; lra). nra.
  - assert (g = 0) by nra. subst g. assert (h <= 0) by lra. assert (0 <= e2 * - h) by (apply Rmult_le_pos; lra). lra.
Qed.
Inductive chain (A : list vec3) : list vec3 -> Prop :=
| chain_one p : chain A [p]
| chain_cons a b r : before a b -> (forall q, List.In q A -> turn a b q <= 0) -> match r with [] => True | c :: _ => turn a b c < 0 end -> chain A (b :: r) -> chain A (a :: b :: r).
Definition ordered (a b : vec3) : Prop := a = b \/ before a b.
Lemma app_cons_tells l : tells l -> forall p0 rest pre, l = pre ++ p0 :: rest -> StronglySorted ordered (p0 :: rest) -> after p0 rest.
Proof.
  intros T p0 rest pre -> S q I. apply StronglySorted_inv in S. destruct S as (_ & S). rewrite Forall_forall in S. destruct (vec_dec q p0) as [E|N]; [left; exact E|right].
  split; [exact N|]. destruct (S q I) as [E|B]; [congruence|]. split; [exact B|]. apply T; [apply in_or_app; right; right; exact I|apply in_or_app; right; left; reflexivity|exact N].
Qed.
Lemma sorted_split p0 mid b r : StronglySorted ordered (p0 :: mid ++ b :: r) -> StronglySorted ordered (b :: r) /\ (forall q, List.In q mid -> ordered q b) /\ (forall q, List.In q r -> ordered b q).
Proof.
  intros S. apply StronglySorted_inv in S. destruct S as (S & _). induction mid as [|m mid IH]; cbn in S.
  - split; [exact S|]. split; [intros q []|]. apply StronglySorted_inv in S. destruct S as (_ & S). rewrite Forall_forall in S. exact S.
  - apply StronglySorted_inv in S. destruct S as (S & F). destruct (IH S) as (A & B & C). split; [exact A|]. split; [|exact C]. intros q [<-|I]; [|apply B, I].
    rewrite Forall_forall in F. apply F. apply in_or_app. right. left. reflexivity.
Qed.
Lemma wrap_next A : tells A -> forall fuel prev p0 rest pre, (length rest <= fuel)%nat -> A = pre ++ p0 :: rest -> StronglySorted ordered (p0 :: rest) ->
  before prev p0 -> (forall q, List.In q pre -> turn prev p0 q <= 0 /\ (q = p0 \/ before q p0)) -> (forall q, List.In q rest -> turn prev p0 q < 0) ->
  exists c, ch2d_wrap fuel s0 s1 (p0 :: rest) = Some c /\ incl c (p0 :: rest) /\ exists d, c ++ [last rest p0] = p0 :: d /\ chain A (p0 :: d) /\ match d with [] => True | n :: _ => turn prev p0 n < 0 end.
Proof.
  intros TA. induction fuel as [|fuel IH]; intros prev p0 rest pre F EA S BP HP HR.
  - destruct rest as [|x rest]; [|cbn in F; lia]. exists []. split; [reflexivity|]. split; [intros x []|]. exists []. split; [reflexivity|]. split; [constructor|exact I].
  - destruct rest as [|x rest].
    { exists []. split; [reflexivity|]. split; [intros x []|]. exists []. split; [reflexivity|]. split; [constructor|exact I]. }
    set (l := x :: rest) in *. assert (AF : after p0 l) by (apply (app_cons_tells A TA p0 l pre EA S)).
    assert (N : forall q, List.In q l -> q <> p0). { intros q I ->. specialize (HR _ I). unfold turn in HR. lra. }
    destruct (pick_start p0 l l AF) as (mid & b & r & El & EP & Bb & M & St). { exists x. split; [left; reflexivity|]. apply N. left. reflexivity. }
    assert (SS := S). rewrite El in SS. destruct (sorted_split _ _ _ _ SS) as (S' & Om & Or).
    assert (Ib : List.In b l) by (rewrite El; apply in_or_app; right; left; reflexivity).
    assert (HA : forall q, List.In q A -> turn p0 b q <= 0).
    { intros q I. rewrite EA in I. apply in_app_or in I. destruct I as [I|[<-|I]]; [|unfold turn; lra|apply M, I]. destruct (HP q I) as (T & O). apply (corner prev); try assumption. left. apply HR, Ib. }
    destruct (IH p0 b r (pre ++ p0 :: mid)) as (c & E & Ic & d & Ed & Ch & Nx).
    + rewrite El, app_length in F. cbn in F. lia.
    + rewrite EA, El. rewrite <- app_assoc. reflexivity.
    + exact S'.
    + exact Bb.
    + intros q I. split; [apply HA; rewrite EA; apply in_app_or in I; apply in_or_app; destruct I as [I|[I|I]]; [left; exact I|right; left; exact I|right; right; rewrite El; apply in_or_app; left; exact I]|].
      apply in_app_or in I. destruct I as [I|[<-|I]]; [|right; exact Bb|apply Om, I]. right. destruct (HP q I) as (_ & [->|Q]); [exact Bb|]. apply (before_trans _ p0); assumption.
    + intros q I. apply St; [exact I|]. apply N. rewrite El. apply in_or_app. right. right. exact I.
    + exists (p0 :: c). cbn [ch2d_wrap]. unfold l at 1. cbv iota. fold l. rewrite EP, E. split; [reflexivity|]. split.
      * intros q [<-|I]; [left; reflexivity|]. right. rewrite El. apply in_or_app. right. apply Ic, I.
      * exists (b :: d). assert (La : last l p0 = last r b). { rewrite El. clear. induction mid as [|m mid IH]; cbn [app].
          - destruct r; [reflexivity|]. cbn [last]. revert v. induction r as [|y r IHr]; intros v; [reflexivity|]. apply IHr.
          - cbn [last]. destruct (mid ++ b :: r) eqn:K; [destruct mid; discriminate|]. exact IH. }
        rewrite La. cbn [app]. rewrite Ed. split; [reflexivity|]. split; [|apply HR, Ib]. constructor; [exact Bb|exact HA|exact Nx|exact Ch].
Qed.
Lemma wrap_first A : tells A -> forall fuel p0 rest, (length rest <= fuel)%nat -> A = p0 :: rest -> StronglySorted ordered A -> (exists q, List.In q A /\ q <> p0) ->
  exists c d, ch2d_wrap fuel s0 s1 A = Some c /\ incl c A /\ c ++ [last A p0] = p0 :: d /\ d <> [] /\ chain A (p0 :: d).
Proof.
  intros TA fuel p0 rest F -> S (q0 & I0 & N0). destruct rest as [|x rest]; [destruct I0 as [<-|[]]; contradiction|]. destruct fuel as [|fuel]; [cbn in F; lia|].
  set (l := x :: rest) in *. assert (AF : after p0 l) by (apply (app_cons_tells _ TA p0 l [] eq_refl S)).
  destruct (pick_start p0 l l AF) as (mid & b & r & El & EP & Bb & M & St). { exists q0. split; [destruct I0 as [<-|I0]; [contradiction|exact I0]|exact N0]. }
  assert (SS := S). rewrite El in SS. destruct (sorted_split _ _ _ _ SS) as (S' & Om & Or).
  assert (HA : forall q, List.In q (p0 :: l) -> turn p0 b q <= 0) by (intros q [<-|I]; [unfold turn; lra|apply M, I]).
  assert (Nr : forall q, List.In q r -> q <> p0). { intros q I ->. destruct (Or _ I) as [E|E]; [rewrite E in Bb; exact (before_irr _ Bb)|]. exact (before_irr _ (before_trans _ _ _ Bb E)). }
  destruct (wrap_next (p0 :: l) TA fuel p0 b r (p0 :: mid)) as (c & E & Ic & d & Ed & Ch & Nx).
  - rewrite El, app_length in F. cbn in F. lia.
  - rewrite El. reflexivity.
  - exact S'.
  - exact Bb.
  - intros q I. split; [apply HA; destruct I as [I|I]; [left; exact I|right; rewrite El; apply in_or_app; left; exact I]|]. destruct I as [<-|I]; [right; exact Bb|apply Om, I].
  - intros q I. apply St; [exact I|apply Nr, I].
  - exists (p0 :: c), (b :: d). cbn [ch2d_wrap]. unfold l at 1. cbv iota. fold l. rewrite EP, E. split; [reflexivity|]. split.
    + intros q [<-|I]; [left; reflexivity|]. right. rewrite El. apply in_or_app. right. apply Ic, I.
    + assert (La : last (p0 :: l) p0 = last r b).
      { rewrite El. clear. change (last (p0 :: mid ++ b :: r) p0) with (match mid ++ b :: r with [] => p0 | _ => last (mid ++ b :: r) p0 end). induction mid as [|m mid IH]; cbn [app].
        - destruct r; [reflexivity|]. cbn [last]. revert v. induction r as [|y r IHr]; intros v; [reflexivity|]. apply IHr.
        - cbn [last]. destruct (mid ++ b :: r) eqn:K; [destruct mid; discriminate|]. exact IH. }
      rewrite La. cbn [app]. rewrite Ed. split; [reflexivity|]. split; [discriminate|]. constructor; [exact Bb|exact HA|exact Nx|exact Ch].
Qed.
End Frame.

(** Which triangles are made. *)
From Verif Require Import ModelDel SpecDel FactsElem FactsTri2 FactsCentre FactsDel FactsDel2 FactsDel3 FactsDel4 FactsDel5 FactsDel6 FactsDel7 FactsDel8.
From Coq Require Import List Lra Lia Bool.
Import ListNotations.
Open Scope R_scope.

(** ** points in general position *)
Lemma small_pos al be ga : 0 < al -> exists ep, 0 < ep /\ forall s, 0 < s < ep -> 0 < al + be * s + ga * (s * s).
Proof.
  intros A. pose proof (Rabs_pos be) as Pb. pose proof (Rabs_pos ga) as Pg. set (D := Rabs be + Rabs ga + 1). assert (PD : 0 < D) by (unfold D; lra).
  exists (Rmin 1 (al / D)). assert (0 < al / D) by (apply Rdiv_lt_0_compat; lra). split; [apply Rmin_glb_lt; lra|]. intros s (S0 & S1).
  pose proof (Rmin_l 1 (al / D)). pose proof (Rmin_r 1 (al / D)). assert (K : s * D < al). { replace al with (al / D * D) by (field; lra). apply Rmult_lt_compat_r; lra. }
  assert (S2 : s * s <= s) by (rewrite <- (Rmult_1_r s) at 3; apply Rmult_le_compat_l; lra). assert (B : - (Rabs be * s) <= be * s). { pose proof (Rle_abs (- be)) as L. rewrite Rabs_Ropp in L. assert (- be * s <= Rabs be * s) by (apply Rmult_le_compat_r; lra). lra. }
  assert (C : - (Rabs ga * s) <= ga * (s * s)). { pose proof (Rle_abs (- ga)) as L. rewrite Rabs_Ropp in L. assert (- ga * (s * s) <= Rabs ga * (s * s)) by (apply Rmult_le_compat_r; [apply Rmult_le_pos; lra|lra]). assert (Rabs ga * (s * s) <= Rabs ga * s) by (apply Rmult_le_compat_l; lra). lra. }
  unfold D in K. lra.
Qed.
Lemma small_poly al be ga : ~ (al = 0 /\ be = 0 /\ ga = 0) -> exists ep, 0 < ep /\ forall s, 0 < s < ep -> al + be * s + ga * (s * s) <> 0.
Proof.
  intros N. destruct (Rtotal_order al 0) as [A|[->|A]].
  - destruct (small_pos (- al) (- be) (- ga)) as (ep & P & H); [lra|]. exists ep. split; [exact P|]. intros s S E. specialize (H s S). lra.
  - destruct (Rtotal_order be 0) as [B|[->|B]].
    + destruct (small_pos (- be) (- ga) 0) as (ep & P & H); [lra|]. exists ep. split; [exact P|]. intros s S E. specialize (H s S). assert (0 < s * (- be + - ga * s)) by (apply Rmult_lt_0_compat; lra). lra.
    + exists 1. split; [lra|]. intros s S E. assert (K : ga * (s * s) = 0) by lra. apply Rmult_integral in K. destruct K as [K|K]; [apply N; auto|]. assert (0 < s * s) by (apply Rmult_lt_0_compat; lra). lra.
    + destruct (small_pos be ga 0) as (ep & P & H); [lra|]. exists ep. split; [exact P|]. intros s S E. specialize (H s S). assert (0 < s * (be + ga * s)) by (apply Rmult_lt_0_compat; lra). lra.
  - destruct (small_pos al be ga A) as (ep & P & H). exists ep. split; [exact P|]. intros s S E. specialize (H s S). lra.
Qed.
Lemma small_list {A} (Q : A -> R -> Prop) l : (forall a, List.In a l -> exists ep, 0 < ep /\ forall s, 0 < s < ep -> Q a s) -> exists ep, 0 < ep /\ forall s, 0 < s < ep -> forall a, List.In a l -> Q a s.
Proof.
  induction l as [|a r IH]; intros H; [exists 1; split; [lra|intros s _ a []]|]. destruct IH as (e1 & P1 & H1); [intros b B; apply H; right; exact B|]. destruct (H a (or_introl eq_refl)) as (e2 & P2 & H2).
  exists (Rmin e1 e2). split; [apply Rmin_glb_lt; assumption|]. intros s S. pose proof (Rmin_l e1 e2). pose proof (Rmin_r e1 e2). intros b [<-|B]; [apply H2; lra|apply H1; [lra|exact B]].
Qed.
Lemma nearby (L C : list (vec2 * vec2)) x : (forall f g, List.In (f, g) L -> f <> g) -> (forall f g, List.In (f, g) C -> 0 < area2 f g x) ->
  exists y, (forall f g, List.In (f, g) L -> area2 f g y <> 0) /\ (forall f g, List.In (f, g) C -> 0 < area2 f g y).
Proof.
  intros HL HC. set (y := fun s => V2 (x2 x + s) (y2 x + s * s)).
  assert (E : forall f g s, area2 f g (y s) = area2 f g x + (- (y2 g - y2 f)) * s + (x2 g - x2 f) * (s * s)) by (intros f g s; unfold y; plane; ring).
  destruct (small_list (fun c s => area2 (fst c) (snd c) (y s) <> 0) L) as (e1 & P1 & H1).
  { intros (f, g) I. cbn [fst snd]. destruct (small_poly (area2 f g x) (- (y2 g - y2 f)) (x2 g - x2 f)) as (ep & P & H); [|exists ep; split; [exact P|intros s S; rewrite E; exact (H s S)]]. intros (_ & A & B). apply (HL f g I). apply vec2_ext; lra. }
  destruct (small_list (fun c s => 0 < area2 (fst c) (snd c) (y s)) C) as (e2 & P2 & H2).
  { intros (f, g) I. cbn [fst snd]. destruct (small_pos (area2 f g x) (- (y2 g - y2 f)) (x2 g - x2 f) (HC f g I)) as (ep & P & H). exists ep. split; [exact P|]. intros s S. rewrite E. exact (H s S). }
  pose proof (Rmin_glb_lt e1 e2 0 P1 P2) as P. pose proof (Rmin_l e1 e2). pose proof (Rmin_r e1 e2). exists (y (Rmin e1 e2 / 2)). split.
  - intros f g I. apply (H1 (Rmin e1 e2 / 2) ltac:(lra) (f, g) I).
  - intros f g I. apply (H2 (Rmin e1 e2 / 2) ltac:(lra) (f, g) I).
Qed.

Section Made.
Variable pts : list vec2.
Notation pt := (dpt pts).
Notation ar := (ar pts). Notation ins := (ins pts). Notation mesh := (mesh pts). Notation off := (off pts).
Definition distinct (V : list nat) : Prop := forall i j, List.In i V -> List.In j V -> i <> j -> pt i <> pt j.
Lemma nearby_off V C x : distinct V -> (forall f g, List.In (f, g) C -> 0 < area2 f g x) -> exists y, off V y /\ (forall f g, List.In (f, g) C -> 0 < area2 f g y).
Proof.
  intros D HC. destruct (nearby (map (fun c => (pt (fst c), pt (snd c))) (filter (fun c => negb (Nat.eqb (fst c) (snd c))) (list_prod V V))) C x) as (y & Y1 & Y2).
  - intros f g I. apply in_map_iff in I. destruct I as ((i, j) & E & I). cbn [fst snd] in E. injection E as <- <-. apply filter_In in I. destruct I as (I & N). apply in_prod_iff in I. cbn [fst snd] in N. destruct (Nat.eqb_spec i j); [discriminate|]. apply D; tauto.
  - exact HC.
  - exists y. split; [|exact Y2]. intros i j I J N. apply Y1. apply in_map_iff. exists (i, j). split; [reflexivity|]. apply filter_In. split; [apply in_prod; assumption|]. cbn [fst snd]. destruct (Nat.eqb_spec i j); [contradiction|reflexivity].
Qed.
(** triangles do not overlap *)
Lemma mesh_disjoint m V x t u v w n t' u' v' w' n' : mesh m V -> distinct V -> dart m t u v w n -> ins u v w x -> dart m t' u' v' w' n' -> ins u' v' w' x -> t = t'.
Proof.
  intros M D D1 (A1 & A2 & A3) D2 (B1 & B2 & B3).
  destruct (nearby_off V [(pt v, pt w); (pt w, pt u); (pt u, pt v); (pt v', pt w'); (pt w', pt u'); (pt u', pt v')] x D) as (y & OY & Y).
  { intros f g I. cbn [List.In] in I. intuition (try congruence); match goal with H : (_, _) = (_, _) |- _ => injection H as <- <-; assumption end. }
  apply (M_one _ _ _ M y _ _ _ _ _ _ _ _ _ _ OY D1) with (2 := D2); (split; [|split]); apply Y; cbn [List.In]; tauto.
Qed.
(** they leave no gap *)
Definition closed_in (u v w : nat) (x : vec2) : Prop := 0 <= area2 (pt v) (pt w) x /\ 0 <= area2 (pt w) (pt u) x /\ 0 <= area2 (pt u) (pt v) x.
Lemma mesh_cover m V x C : mesh m V -> distinct V -> ins 0 1 2 x -> (forall f g, List.In (f, g) C -> 0 < area2 f g x) ->
  exists y t u v w n, dart m t u v w n /\ closed_in u v w x /\ off V y /\ ins u v w y /\ (forall f g, List.In (f, g) C -> 0 < area2 f g y).
Proof.
  intros M D (A1 & A2 & A3) HC.
  assert (SEP : exists S, (forall f g, List.In (f, g) S -> 0 < area2 f g x) /\ forall t T, List.In (t, T) m -> closed_in (dv T 0) (dv T 1) (dv T 2) x \/ exists u v, List.In (pt v, pt u) S /\ (u = dv T 0 /\ v = dv T 1 \/ u = dv T 1 /\ v = dv T 2 \/ u = dv T 2 /\ v = dv T 0)).
  { clear - m. induction m as [|(s, T) r IH]; [exists []; split; [intros f g []|intros t T []]|]. destruct IH as (S & S1 & S2).
    assert (K : closed_in (dv T 0) (dv T 1) (dv T 2) x \/ exists u v, area2 (pt u) (pt v) x < 0 /\ (u = dv T 0 /\ v = dv T 1 \/ u = dv T 1 /\ v = dv T 2 \/ u = dv T 2 /\ v = dv T 0)).
    { unfold closed_in. destruct (Rlt_le_dec (area2 (pt (dv T 0)) (pt (dv T 1)) x) 0) as [L1|L1]; [right; exists (dv T 0), (dv T 1); tauto|]. destruct (Rlt_le_dec (area2 (pt (dv T 1)) (pt (dv T 2)) x) 0) as [L2|L2]; [right; exists (dv T 1), (dv T 2); tauto|].
      destruct (Rlt_le_dec (area2 (pt (dv T 2)) (pt (dv T 0)) x) 0) as [L3|L3]; [right; exists (dv T 2), (dv T 0); tauto|]. left. auto. }
    destruct K as [K|(u & v & L & E)].
    - exists S. split; [exact S1|]. intros t T' [H|H]; [injection H as <- <-; left; exact K|exact (S2 t T' H)].
    - exists ((pt v, pt u) :: S). split; [intros f g [H|H]; [injection H as <- <-; rewrite area_swap; lra|exact (S1 f g H)]|]. intros t T' [H|H]; [injection H as <- <-; right; exists u, v; split; [left; reflexivity|exact E]|].
      destruct (S2 t T' H) as [H2|(u' & v' & H2 & H3)]; [left; exact H2|right; exists u', v'; split; [right; exact H2|exact H3]]. }
  destruct SEP as (S & S1 & S2).
  destruct (nearby_off V ((pt 1, pt 2) :: (pt 2, pt 0) :: (pt 0, pt 1) :: S ++ C) x D) as (y & OY & Y).
  { intros f g [H|[H|[H|H]]]; [injection H as <- <-; assumption|injection H as <- <-; assumption|injection H as <- <-; assumption|]. apply in_app_iff in H. destruct H as [H|H]; [exact (S1 f g H)|exact (HC f g H)]. }
  assert (IY : ins 0 1 2 y) by (split; [|split]; apply Y; cbn [List.In]; tauto).
  destruct (M_cov _ _ _ M y OY IY) as (t & u & v & w & n & DT' & IN). exists y, t, u, v, w, n. split; [exact DT'|]. split; [|split; [exact OY|split; [exact IN|intros f g H; apply Y; right; right; right; apply in_app_iff; auto]]].
  destruct DT' as (T & i & G & I & <- & <- & <- & _). assert (IN' : ins (dv T 0) (dv T 1) (dv T 2) y) by (three i I; cbv [nx nxx Nat.modulo Nat.divmod Nat.add snd fst Nat.sub] in IN; [exact IN|apply inside_rot, inside_rot, IN|apply inside_rot, IN]).
  destruct (S2 t T (dget_in _ _ _ G)) as [K|(u & v & K & E)].
  - unfold closed_in in *. three i I; cbv [nx nxx Nat.modulo Nat.divmod Nat.add snd fst Nat.sub]; tauto.
  - exfalso. assert (Q : 0 < area2 (pt v) (pt u) y) by (apply Y; right; right; right; apply in_app_iff; auto). rewrite area_swap in Q. destruct IN' as (B1 & B2 & B3). destruct E as [(-> & ->)|[(-> & ->)|(-> & ->)]]; lra.
Qed.
(** a generic point of an empty circle's triangle lies in a triangle inscribed in the same circle *)
Lemma same_circle m V a b c y t u v w n : mesh m V -> empty_circles pts m V -> 0 < ar a b c -> List.In a V -> List.In b V -> List.In c V -> (forall q, List.In q V -> 0 <= powi pts a b c q) ->
  dart m t u v w n -> ins a b c y -> ins u v w y -> powi pts a b c u = 0 /\ powi pts a b c v = 0 /\ powi pts a b c w = 0.
Proof.
  intros M EC P Ia Ib Ic EM D (A1 & A2 & A3) (B1 & B2 & B3).
  destruct (dart_rot _ _ _ _ _ _ D) as (n1 & D1). destruct (dart_rot _ _ _ _ _ _ D1) as (n2 & D2). pose proof (M_in _ _ _ M _ _ _ _ _ D) as Iu. pose proof (M_in _ _ _ M _ _ _ _ _ D1) as Iv. pose proof (M_in _ _ _ M _ _ _ _ _ D2) as Iw. pose proof (M_pos _ _ _ M _ _ _ _ _ D) as PD.
  pose proof (EM u Iu) as Eu. pose proof (EM v Iv) as Ev. pose proof (EM w Iw) as Ew. pose proof (EC _ _ _ _ _ a D Ia) as Ua. pose proof (EC _ _ _ _ _ b D Ib) as Ub. pose proof (EC _ _ _ _ _ c D Ic) as Uc.
  assert (Za : powi pts a b c a = 0) by apply pow_a. assert (Zb : powi pts a b c b = 0) by (apply pow_b; fold (ar a b c); lra). assert (Zc : powi pts a b c c = 0) by (apply pow_c; fold (ar a b c); lra).
  assert (Zu : powi pts u v w u = 0) by apply pow_a. assert (Zv : powi pts u v w v = 0) by (apply pow_b; fold (ar u v w); lra). assert (Zw : powi pts u v w w = 0) by (apply pow_c; fold (ar u v w); lra).
  unfold powi in *. destruct (pow_circle (pt a) (pt b) (pt c)) as (o & k & O). destruct (pow_circle (pt u) (pt v) (pt w)) as (o' & k' & O'). rewrite O in Za, Zb, Zc, Eu, Ev, Ew. rewrite !O. rewrite O' in Zu, Zv, Zw, Ua, Ub, Uc.
  pose proof (pw_affine o k o' k' (pt a) (pt b) (pt c) y) as F1. pose proof (pw_affine o k o' k' (pt u) (pt v) (pt w) y) as F2. set (g := pw o k y - pw o' k' y) in *.
  rewrite Za, Zb, Zc in F1. rewrite Zu, Zv, Zw in F2. unfold FactsDel4.ar in P, PD.
  assert (0 <= area2 (pt b) (pt c) y * pw o' k' (pt a)) by (apply Rmult_le_pos; lra). assert (0 <= area2 (pt c) (pt a) y * pw o' k' (pt b)) by (apply Rmult_le_pos; lra). assert (0 <= area2 (pt a) (pt b) y * pw o' k' (pt c)) by (apply Rmult_le_pos; lra).
  assert (0 <= area2 (pt v) (pt w) y * pw o k (pt u)) by (apply Rmult_le_pos; lra). assert (0 <= area2 (pt w) (pt u) y * pw o k (pt v)) by (apply Rmult_le_pos; lra). assert (0 <= area2 (pt u) (pt v) y * pw o k (pt w)) by (apply Rmult_le_pos; lra).
  assert (G : g <= 0). { destruct (Rle_lt_dec g 0) as [L|L]; [exact L|exfalso]. assert (0 < area2 (pt a) (pt b) (pt c) * g) by (apply Rmult_lt_0_compat; lra). lra. }
  assert (0 <= area2 (pt u) (pt v) (pt w) * - g) by (apply Rmult_le_pos; lra).
  assert (Q : forall r s, 0 < r -> r * s = 0 -> s = 0) by (intros r s R0 E; apply Rmult_integral in E; destruct E; lra).
  split; [apply (Q (area2 (pt v) (pt w) y)); lra|]. split; [apply (Q (area2 (pt w) (pt u) y)); lra|apply (Q (area2 (pt u) (pt v) y)); lra].
Qed.
(** triangles on the same side of an edge are the same *)
Lemma edge_one m V t u v w n t' w' n' : mesh m V -> distinct V -> dart m t u v w n -> dart m t' u v w' n' -> t = t'.
Proof.
  intros M D D1 D2. pose proof (M_pos _ _ _ M _ _ _ _ _ D1) as P1. pose proof (M_pos _ _ _ M _ _ _ _ _ D2) as P2. unfold FactsDel4.ar in P1, P2.
  set (z := fun s => V2 ((1 / 2) * (x2 (pt u) + x2 (pt v)) + s * (x2 (pt w) - (1 / 2) * (x2 (pt u) + x2 (pt v)))) ((1 / 2) * (y2 (pt u) + y2 (pt v)) + s * (y2 (pt w) - (1 / 2) * (y2 (pt u) + y2 (pt v))))).
  assert (E0 : forall s, area2 (pt u) (pt v) (z s) = s * area2 (pt u) (pt v) (pt w)) by (intros s; unfold z; plane; field).
  assert (E1 : forall s, area2 (pt v) (pt w) (z s) = (1 / 2) * area2 (pt u) (pt v) (pt w) + (- (1 / 2) * area2 (pt u) (pt v) (pt w)) * s + 0 * (s * s)) by (intros s; unfold z; plane; field).
  assert (E2 : forall s, area2 (pt w) (pt u) (z s) = (1 / 2) * area2 (pt u) (pt v) (pt w) + (- (1 / 2) * area2 (pt u) (pt v) (pt w)) * s + 0 * (s * s)) by (intros s; unfold z; plane; field).
  assert (E3 : forall s, area2 (pt v) (pt w') (z s) = (1 / 2) * area2 (pt u) (pt v) (pt w') + (area2 (pt v) (pt w') (pt w) - (1 / 2) * area2 (pt u) (pt v) (pt w')) * s + 0 * (s * s)) by (intros s; unfold z; plane; field).
  assert (E4 : forall s, area2 (pt w') (pt u) (z s) = (1 / 2) * area2 (pt u) (pt v) (pt w') + (area2 (pt w') (pt u) (pt w) - (1 / 2) * area2 (pt u) (pt v) (pt w')) * s + 0 * (s * s)) by (intros s; unfold z; plane; field).
  destruct (small_pos ((1 / 2) * area2 (pt u) (pt v) (pt w')) (area2 (pt v) (pt w') (pt w) - (1 / 2) * area2 (pt u) (pt v) (pt w')) 0 ltac:(lra)) as (e1 & Q1 & H1).
  destruct (small_pos ((1 / 2) * area2 (pt u) (pt v) (pt w')) (area2 (pt w') (pt u) (pt w) - (1 / 2) * area2 (pt u) (pt v) (pt w')) 0 ltac:(lra)) as (e2 & Q2 & H2).
  set (s := Rmin 1 (Rmin e1 e2) / 2). pose proof (Rmin_glb_lt _ _ _ Q1 Q2) as Q3. pose proof (Rmin_glb_lt 1 (Rmin e1 e2) 0 ltac:(lra) Q3) as Q4. pose proof (Rmin_l 1 (Rmin e1 e2)). pose proof (Rmin_r 1 (Rmin e1 e2)). pose proof (Rmin_l e1 e2). pose proof (Rmin_r e1 e2).
  assert (S : 0 < s < 1) by (unfold s; lra). assert (S1 : 0 < s < e1) by (unfold s; lra). assert (S2 : 0 < s < e2) by (unfold s; lra). clearbody s.
  assert (0 < s * area2 (pt u) (pt v) (pt w)) by (apply Rmult_lt_0_compat; lra). assert (0 < (1 - s) * area2 (pt u) (pt v) (pt w)) by (apply Rmult_lt_0_compat; lra).
  apply (mesh_disjoint m V (z s) t u v w n t' u v w' n' M D D1) with (2 := D2).
  - split; [rewrite E1; lra|]. split; [rewrite E2; lra|rewrite E0; lra].
  - split; [rewrite E3; exact (H1 s S1)|]. split; [rewrite E4; exact (H2 s S2)|rewrite E0; lra].
Qed.
End Made.

(** The triangles around a point. *)
From Verif Require Import ModelVor SpecVor SpecDel FactsElem FactsTri2 FactsCentre FactsDel FactsDel2 FactsDel3 FactsDel4 FactsDel5 FactsDel6 FactsDel7 FactsDel8 FactsDel9 FactsVor.
From Coq Require Import List Lra Lia Bool.
Import ListNotations.
Open Scope R_scope.

Section Star.
Variables (pts : list vec2) (m : mem) (V : list nat) (v : nat).
Notation pt := (dpt pts).
Hypothesis M : mesh pts m V.
Hypothesis D : distinct pts V.
Hypothesis V3 : (3 <= v)%nat.
Hypothesis VV : List.In v V.
Hypothesis VI : ins pts 0 1 2 (pt v).

Lemma star_null t a b n : dart m t v a b n -> exists s, n = Some s.
Proof. intros K. destruct n as [s|]; [eauto|]. apply (M_rim _ _ _ M) in K. unfold rim in K. lia. Qed.
Lemma star_null' t a b n : dart m t a v b n -> exists s, n = Some s.
Proof. intros K. destruct n as [s|]; [eauto|]. apply (M_rim _ _ _ M) in K. unfold rim in K. lia. Qed.
Lemma star_next t a b s : dart m t v a b (Some s) -> exists c s', dart m s v c a (Some s').
Proof. intros K. destruct (M_adj _ _ _ M _ _ _ _ _ K) as (c & K1). destruct (dart_rot _ _ _ _ _ _ K1) as (n & K2). destruct (star_null _ _ _ _ K2) as (s' & ->). eauto. Qed.
Lemma star_prev t a b n : dart m t v a b n -> exists c s, dart m s v b c (Some t).
Proof.
  intros K. destruct (dart_rot _ _ _ _ _ _ K) as (n1 & K1). destruct (dart_rot _ _ _ _ _ _ K1) as (n2 & K2). destruct (star_null' _ _ _ _ K2) as (s & ->). destruct (M_adj _ _ _ M _ _ _ _ _ K2) as (c & K3). eauto.
Qed.
Lemma star_inj t a b t' a' b' s : dart m t v a b (Some s) -> dart m t' v a' b' (Some s) -> t = t'.
Proof.
  intros K K'. destruct (M_adj _ _ _ M _ _ _ _ _ K) as (c & J). destruct (M_adj _ _ _ M _ _ _ _ _ K') as (c' & J'). pose proof (M_pos _ _ _ M _ _ _ _ _ J) as P. pose proof (M_pos _ _ _ M _ _ _ _ _ J') as P'. apply ar_ne in P, P'.
  destruct (dart_only _ _ _ _ _ _ _ _ _ _ J J') as [(-> & _ & ->)|[(-> & _)|(_ & E & _)]]; [|exfalso; tauto|exfalso; intuition congruence].
  destruct (mesh_fun _ _ _ _ _ _ _ _ _ _ _ M J J') as (_ & _ & E). congruence.
Qed.
(** the corners next to [v] *)
Definition starl : list (nat * nat) := flat_map (fun c => flat_map (fun i => if Nat.eqb (dv (snd c) i) v then [(fst c, dv (snd c) (nx i))] else []) [0%nat; 1%nat; 2%nat]) m.
Lemma starl_in t a : List.In (t, a) starl <-> exists b n, dart m t v a b n.
Proof.
  unfold starl. rewrite in_flat_map. split.
  - intros ((t0, T) & I & H). apply in_flat_map in H. destruct H as (i & Li & H). cbn [snd fst] in H. destruct (Nat.eqb_spec (dv T i) v) as [E|E]; [|destruct H]. destruct H as [H|[]]. injection H as <- <-.
    assert (L : (i < 3)%nat) by (cbn [List.In] in Li; lia). apply (in_dget _ _ _ (M_ids _ _ _ M)) in I. exists (dv T (nxx i)), (dadj T i), T, i. auto 8.
  - intros (b & n & T & i & G & L & E1 & E2 & E3 & E4). exists (t, T). split; [apply dget_in, G|]. apply in_flat_map. exists i. split; [cbn [List.In]; lia|]. cbn [snd fst]. rewrite E1, Nat.eqb_refl. left. rewrite E2. reflexivity.
Qed.
(** a set of triangles around [v] that is closed under going to the neighbour has one in every direction *)
Section Cone.
Variables (S : nat -> bool) (y : vec2).
Hypothesis SN : exists t a b n, dart m t v a b n /\ S t = true.
Hypothesis SC : forall t a b s, dart m t v a b (Some s) -> S t = true -> S s = true.
Hypothesis OY : off pts V y.
Let c (p : nat) : R := area2 (pt v) y (pt p).
Let dd (p : nat) : R := dot2 (vsub2 y (pt v)) (vsub2 (pt p) (pt v)).
Lemma cone_id a b : sq y (pt v) * ar pts v a b = dd a * c b - c a * dd b.
Proof. unfold c, dd, ar, sq. plane. unfold dot2. cbn [x2 y2 vsub2]. ring. Qed.
Lemma cone_c t a b n : dart m t v a b n -> c a <> 0.
Proof.
  intros K. destruct (dart_rot _ _ _ _ _ _ K) as (n1 & K1). pose proof (M_in _ _ _ M _ _ _ _ _ K1) as I. pose proof (M_pos _ _ _ M _ _ _ _ _ K) as P. apply ar_ne in P. pose proof (OY v a VV I ltac:(tauto)) as N. unfold c. rewrite area_rot, area_swap. intros E. apply N. rewrite area_swap. rewrite area_rot in E. revert N E. plane. intros N E. lra.
Qed.
Lemma cone_sq t a b n : dart m t v a b n -> 0 < sq y (pt v).
Proof.
  intros K. pose proof (cone_c _ _ _ _ K) as N. pose proof (Rle_0_sqr (x2 y - x2 (pt v))) as A. pose proof (Rle_0_sqr (y2 y - y2 (pt v))) as B. unfold Rsqr in A, B. assert (Q : 0 <= sq y (pt v)) by (revert A B; plane; lra).
  destruct (Rle_lt_or_eq_dec _ _ Q) as [H|H]; [exact H|exfalso]. apply N. unfold c. assert (Z : forall r, r * r = 0 -> r = 0) by (intros r E; apply Rmult_integral in E; tauto).
  assert (E1 : x2 y - x2 (pt v) = 0) by (apply Z; revert A B H; plane; lra). assert (E2 : y2 y - y2 (pt v) = 0) by (apply Z; revert A B H; plane; lra). unfold area2, cross2. cbn [x2 y2 vsub2]. plane. rewrite E1, E2. ring.
Qed.
Lemma cone_step t a b s a' n : dart m t v a b (Some s) -> dart m s v a' a n -> 0 < c a * c a' -> - dd a' / c a' < - dd a / c a.
Proof.
  intros K K' P. pose proof (cone_id a' a) as E. pose proof (cone_sq _ _ _ _ K) as Q. pose proof (M_pos _ _ _ M _ _ _ _ _ K') as A. pose proof (cone_c _ _ _ _ K) as N. pose proof (cone_c _ _ _ _ K') as N'.
  assert (L : 0 < dd a' * c a - c a' * dd a) by (rewrite <- E; apply Rmult_lt_0_compat; lra).
  assert (G : - dd a / c a - - dd a' / c a' = (dd a' * c a - c a' * dd a) / (c a * c a')) by (field; auto). assert (0 < (dd a' * c a - c a' * dd a) / (c a * c a')) by (apply Rdiv_lt_0_compat; assumption). lra.
Qed.
Lemma cone_cover : exists t a b n, dart m t v a b n /\ S t = true /\ 0 < area2 (pt v) (pt a) y /\ 0 < area2 (pt b) (pt v) y.
Proof.
  set (up := filter (fun e => S (fst e) && Rltb 0 (c (snd e))) starl). set (low := filter (fun e => S (fst e) && Rltb (c (snd e)) 0) starl).
  assert (UP : forall t a, List.In (t, a) up <-> (exists b n, dart m t v a b n) /\ S t = true /\ 0 < c a). { intros t a. unfold up. rewrite filter_In, starl_in. cbn [fst snd]. rewrite andb_true_iff. destruct (Rltb_reflect 0 (c a)); intuition discriminate. }
  assert (LOW : forall t a, List.In (t, a) low <-> (exists b n, dart m t v a b n) /\ S t = true /\ c a < 0). { intros t a. unfold low. rewrite filter_In, starl_in. cbn [fst snd]. rewrite andb_true_iff. destruct (Rltb_reflect (c a) 0); intuition discriminate. }
  destruct up as [|e0 r0] eqn:EU.
  - (* no corner to the left of the direction *)
    assert (NE : low <> []). { destruct SN as (t & a & b & n & K & St). intros E. pose proof (cone_c _ _ _ _ K) as N. destruct (Rtotal_order (c a) 0) as [L|[L|L]]; [|contradiction|]. - assert (I : List.In (t, a) low) by (apply LOW; eauto 6). rewrite E in I. destruct I. - assert (I : List.In (t, a) []) by (apply UP; eauto 6). destruct I. }
    destruct (argmin (fun e => - dd (snd e) / c (snd e)) low NE) as ((t & a) & I & MIN). apply LOW in I. destruct I as ((b & n & K) & St & Ca). destruct (star_null _ _ _ _ K) as (s & ->). destruct (star_next _ _ _ _ K) as (a' & s' & K'). pose proof (SC _ _ _ _ K St) as Ss.
    pose proof (cone_c _ _ _ _ K') as N'. destruct (Rtotal_order (c a') 0) as [L|[L|L]]; [exfalso|contradiction|exfalso].
    + assert (I' : List.In (s, a') low) by (apply LOW; eauto 6). specialize (MIN _ I'). cbn [snd] in MIN. assert (Q : 0 < c a * c a') by (replace (c a * c a') with (- c a * - c a') by ring; apply Rmult_lt_0_compat; lra). pose proof (cone_step _ _ _ _ _ _ K K' Q). lra.
    + assert (I' : List.In (s, a') []) by (apply UP; eauto 6). destruct I'.
  - destruct (argmin (fun e => - dd (snd e) / c (snd e)) (e0 :: r0) ltac:(discriminate)) as ((t & a) & I & MIN). apply UP in I. destruct I as ((b & n & K) & St & Ca). destruct (star_null _ _ _ _ K) as (s & ->). destruct (star_next _ _ _ _ K) as (a' & s' & K'). pose proof (SC _ _ _ _ K St) as Ss.
    pose proof (cone_c _ _ _ _ K') as N'. destruct (Rtotal_order (c a') 0) as [L|[L|L]]; [|contradiction|exfalso].
    + exists s, a', a, (Some s'). split; [exact K'|]. split; [exact Ss|]. unfold c in L, Ca. split; [revert L|revert Ca]; plane; lra.
    + assert (I' : List.In (s, a') (e0 :: r0)) by (apply UP; eauto 6). specialize (MIN _ I'). cbn [snd] in MIN. assert (Q : 0 < c a * c a') by (apply Rmult_lt_0_compat; lra). pose proof (cone_step _ _ _ _ _ _ K K' Q). lra.
Qed.
End Cone.
(** hence it has them all *)
Lemma star_one (S : nat -> bool) : (exists t a b n, dart m t v a b n /\ S t = true) -> (forall t a b s, dart m t v a b (Some s) -> S t = true -> S s = true) -> forall t a b n, dart m t v a b n -> S t = true.
Proof.
  intros SN SC t0 a0 b0 n0 K0. pose proof (M_pos _ _ _ M _ _ _ _ _ K0) as P0. unfold ar in P0.
  set (g := vscale2 (/ 3) (vadd2 (vadd2 (pt v) (pt a0)) (pt b0))).
  destruct (nearby_off pts V [(pt v, pt a0); (pt b0, pt v)] g D) as (y & OY & Y).
  { assert (G1 : area2 (pt v) (pt a0) g = area2 (pt v) (pt a0) (pt b0) / 3) by (unfold g; plane; field). assert (G2 : area2 (pt b0) (pt v) g = area2 (pt v) (pt a0) (pt b0) / 3) by (unfold g; plane; field). intros f h [H|[H|[]]]; injection H as <- <-; lra. }
  destruct (cone_cover S y SN SC OY) as (t & a & b & n & K & St & C1 & C2). pose proof (M_pos _ _ _ M _ _ _ _ _ K) as P. unfold ar in P.
  assert (A1 : 0 < area2 (pt v) (pt a0) y) by (apply Y; left; reflexivity). assert (A2 : 0 < area2 (pt b0) (pt v) y) by (apply Y; right; left; reflexivity).
  set (z := fun s => V2 (x2 (pt v) + s * (x2 y - x2 (pt v))) (y2 (pt v) + s * (y2 y - y2 (pt v)))).
  assert (Z1 : forall p s, area2 (pt v) p (z s) = s * area2 (pt v) p y) by (intros p s; unfold z; plane; ring). assert (Z2 : forall p s, area2 p (pt v) (z s) = s * area2 p (pt v) y) by (intros p s; unfold z; plane; ring).
  assert (Z3 : forall p q s, area2 p q (z s) = area2 (pt v) p q + (area2 p q y - area2 (pt v) p q) * s + 0 * (s * s)) by (intros p q s; unfold z; plane; ring).
  destruct (small_pos _ (area2 (pt a0) (pt b0) y - area2 (pt v) (pt a0) (pt b0)) 0 P0) as (e1 & Q1 & H1). destruct (small_pos _ (area2 (pt a) (pt b) y - area2 (pt v) (pt a) (pt b)) 0 P) as (e2 & Q2 & H2).
  set (s := Rmin e1 e2 / 2). pose proof (Rmin_glb_lt _ _ _ Q1 Q2). pose proof (Rmin_l e1 e2). pose proof (Rmin_r e1 e2). assert (S1 : 0 < s < e1) by (unfold s; lra). assert (S2 : 0 < s < e2) by (unfold s; lra). clearbody s.
  rewrite <- St. f_equal. apply (mesh_disjoint pts m V (z s) t0 v a0 b0 n0 t v a b n M D K0) with (2 := K).
  - split; [rewrite Z3; exact (H1 s S1)|]. split; [rewrite Z2|rewrite Z1]; apply Rmult_lt_0_compat; lra.
  - split; [rewrite Z3; exact (H2 s S2)|]. split; [rewrite Z2|rewrite Z1]; apply Rmult_lt_0_compat; lra.
Qed.
(** there is one *)
Lemma star_some : exists t a b n, dart m t v a b n.
Proof.
  destruct (mesh_cover pts m V (pt v) [] M D VI ltac:(intros f g [])) as (y & t & a & b & c & n & K & (C1 & C2 & C3) & _).
  destruct (M_own _ _ _ M v _ _ _ _ _ VV K) as [->|[->|[->|H]]]; [eauto| | |exfalso; unfold ar in H; lra].
  - destruct (dart_rot _ _ _ _ _ _ K) as (n1 & K1). eauto.
  - destruct (dart_rot _ _ _ _ _ _ K) as (n1 & K1). destruct (dart_rot _ _ _ _ _ _ K1) as (n2 & K2). eauto 6.
Qed.
(** one in every direction, boundaries included *)
Lemma star_cover q : exists t a b n, dart m t v a b n /\ 0 <= area2 (pt v) (pt a) q /\ 0 <= area2 (pt b) (pt v) q.
Proof.
  assert (SEP : exists C, (forall f g, List.In (f, g) C -> 0 < area2 f g q) /\ forall t a, List.In (t, a) starl -> forall b n, dart m t v a b n -> (0 <= area2 (pt v) (pt a) q /\ 0 <= area2 (pt b) (pt v) q) \/ List.In (pt a, pt v) C \/ List.In (pt v, pt b) C).
  { generalize starl. intros l. induction l as [|(s, e) r IH]; [exists []; split; [intros f g []|intros t a []]|]. destruct IH as (C & C1 & C2).
    set (bs := flat_map (fun c => [dv (snd c) 0; dv (snd c) 1; dv (snd c) 2]) m).
    (* all second corners *)
    set (N := filter (fun b => Rltb (area2 (pt b) (pt v) q) 0) bs).
    exists (map (fun b => (pt v, pt b)) N ++ (if Rltb (area2 (pt v) (pt e) q) 0 then [(pt e, pt v)] else []) ++ C). split.
    - intros f g H. apply in_app_iff in H. destruct H as [H|H].
      + apply in_map_iff in H. destruct H as (b & E & H). injection E as <- <-. apply filter_In in H. destruct H as (_ & H). destruct (Rltb_reflect (area2 (pt b) (pt v) q) 0); [|discriminate]. rewrite area_swap. lra.
      + apply in_app_iff in H. destruct H as [H|H]; [|exact (C1 f g H)]. destruct (Rltb_reflect (area2 (pt v) (pt e) q) 0) as [L|L]; [|destruct H]. destruct H as [H|[]]. injection H as <- <-. rewrite area_swap. lra.
    - intros t a I b n K. destruct I as [E|I].
      + injection E as -> ->. destruct (Rlt_le_dec (area2 (pt v) (pt a) q) 0) as [L1|L1].
        * right. left. apply in_app_iff. right. apply in_app_iff. left. destruct (Rltb_reflect (area2 (pt v) (pt a) q) 0) as [L|L]; [left; reflexivity|lra].
        * destruct (Rlt_le_dec (area2 (pt b) (pt v) q) 0) as [L2|L2]; [|left; auto]. right. right. apply in_app_iff. left. apply in_map_iff. exists b. split; [reflexivity|]. apply filter_In. split; [|destruct (Rltb_reflect (area2 (pt b) (pt v) q) 0) as [L|L]; [reflexivity|lra]].
          destruct K as (T & i & G & Li & _ & _ & <- & _). apply in_flat_map. exists (t, T). split; [apply dget_in, G|]. cbn [snd]. three i Li; cbv [nxx Nat.modulo Nat.divmod Nat.add snd fst Nat.sub]; cbn [List.In]; tauto.
      + destruct (C2 t a I b n K) as [H|[H|H]]; [left; exact H|right; left|right; right]; apply in_app_iff; right; apply in_app_iff; right; exact H. }
  destruct SEP as (C & C1 & C2). destruct (nearby_off pts V C q D C1) as (y & OY & Y).
  destruct (cone_cover (fun _ => true) y) as (t & a & b & n & K & _ & A1 & A2); [destruct star_some as (t & a & b & n & K); exists t, a, b, n; auto|reflexivity|exact OY|].
  exists t, a, b, n. split; [exact K|]. destruct (C2 t a (proj2 (starl_in t a) (ex_intro _ b (ex_intro _ n K))) b n K) as [H|[H|H]]; [exact H|exfalso; apply Y in H; rewrite area_swap in H; lra|exfalso; apply Y in H; rewrite area_swap in H; lra].
Qed.
End Star.
(** half-planes of the neighbours *)
Lemma halfplane v a b o x q : 0 < area2 v a b -> sq a o = sq v o -> sq b o = sq v o -> sq v o <= sq q o -> 0 <= area2 v a q -> 0 <= area2 b v q -> sq x v <= sq x a -> sq x v <= sq x b -> sq x v <= sq x q.
Proof.
  intros P E1 E2 Q B2 B1 X1 X2.
  assert (ID : area2 v a b * (sq x q - sq x v) = area2 v a b * (sq q o - sq v o) + area2 b v q * ((sq x a - sq x v) - (sq a o - sq v o)) + area2 v a q * ((sq x b - sq x v) - (sq b o - sq v o))) by (plane; ring).
  rewrite E1, E2 in ID. assert (0 <= area2 v a b * (sq q o - sq v o)) by (apply Rmult_le_pos; lra). assert (0 <= area2 b v q * (sq x a - sq x v - (sq v o - sq v o))) by (apply Rmult_le_pos; lra). assert (0 <= area2 v a q * (sq x b - sq x v - (sq v o - sq v o))) by (apply Rmult_le_pos; lra).
  destruct (Rle_lt_dec (sq x v) (sq x q)) as [L|L]; [exact L|exfalso]. assert (0 < area2 v a b * (sq x v - sq x q)) by (apply Rmult_lt_0_compat; lra). lra.
Qed.

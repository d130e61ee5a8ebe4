(** Triangulations: the invariant and its preservation by a flip. *)
From Verif Require Import ModelDel SpecDel FactsDel FactsDel2 FactsDel3.
From Coq Require Import List Lra Lia Bool.
Import ListNotations.
Open Scope R_scope.

Lemma area_affine a b c f g x : area2 a b c * area2 f g x = area2 b c x * area2 f g a + area2 c a x * area2 f g b + area2 a b x * area2 f g c.
Proof. plane. ring. Qed.
Lemma area_pos_in a b c f g x : inside_triangle a b c x -> 0 <= area2 f g a -> 0 <= area2 f g b -> 0 <= area2 f g c -> (0 < area2 f g a \/ 0 < area2 f g b \/ 0 < area2 f g c) -> 0 < area2 f g x.
Proof.
  intros (X & Y & Z) A B C D. pose proof (area_sum a b c x) as S. pose proof (area_affine a b c f g x) as E.
  assert (0 <= area2 b c x * area2 f g a) by (apply Rmult_le_pos; lra). assert (0 <= area2 c a x * area2 f g b) by (apply Rmult_le_pos; lra). assert (0 <= area2 a b x * area2 f g c) by (apply Rmult_le_pos; lra).
  assert (0 < area2 a b c * area2 f g x). { destruct D as [D|[D|D]]; [assert (0 < area2 b c x * area2 f g a) by (apply Rmult_lt_0_compat; lra)|assert (0 < area2 c a x * area2 f g b) by (apply Rmult_lt_0_compat; lra)|assert (0 < area2 a b x * area2 f g c) by (apply Rmult_lt_0_compat; lra)]; lra. }
  destruct (Rlt_le_dec 0 (area2 f g x)) as [L|L]; [exact L|exfalso]. assert (0 <= area2 a b c * - area2 f g x) by (apply Rmult_le_pos; lra). lra.
Qed.
Lemma area_nonneg_in a b c f g x : 0 < area2 a b c -> 0 <= area2 b c x -> 0 <= area2 c a x -> 0 <= area2 a b x -> 0 <= area2 f g a -> 0 <= area2 f g b -> 0 <= area2 f g c -> 0 <= area2 f g x.
Proof.
  intros P X Y Z A B C. pose proof (area_affine a b c f g x) as E.
  assert (0 <= area2 b c x * area2 f g a) by (apply Rmult_le_pos; lra). assert (0 <= area2 c a x * area2 f g b) by (apply Rmult_le_pos; lra). assert (0 <= area2 a b x * area2 f g c) by (apply Rmult_le_pos; lra).
  destruct (Rle_lt_dec 0 (area2 f g x)) as [L|L]; [exact L|exfalso]. assert (0 < area2 a b c * - area2 f g x) by (apply Rmult_lt_0_compat; lra). lra.
Qed.
Lemma area_self1 a b : area2 a b a = 0. Proof. plane. ring. Qed.
Lemma area_self2 a b : area2 a b b = 0. Proof. plane. ring. Qed.
Lemma area_self3 a b : area2 a a b = 0. Proof. plane. ring. Qed.
(** the two ways to cut a convex quadrangle *)
Lemma quad_cut u v p n x : 0 < area2 u v p -> 0 < area2 v u n -> 0 < area2 u n p -> 0 < area2 v p n -> area2 n p x <> 0 ->
  inside_triangle u v p x -> inside_triangle u n p x \/ inside_triangle v p n x.
Proof.
  intros A B C D N (X & Y & Z). pose proof (area_self1 u n). pose proof (area_self2 n v).
  assert (E1 : area2 u n v = area2 v u n) by (plane; ring). assert (E2 : area2 n v u = area2 v u n) by (plane; ring). assert (E3 : area2 n v p = area2 v p n) by (plane; ring).
  assert (E4 : area2 p n x = - area2 n p x) by (plane; ring).
  destruct (Rlt_le_dec 0 (area2 n p x)) as [L|L].
  - left. split; [exact L|]. split; [exact Y|]. apply (area_pos_in u v p); [split; [exact X|split; [exact Y|exact Z]]|lra|lra|lra|right; left; lra].
  - right. split; [lra|]. split; [|exact X]. apply (area_pos_in u v p); [split; [exact X|split; [exact Y|exact Z]]|lra|lra|lra|left; lra].
Qed.
Lemma inside_rot a b c x : inside_triangle a b c x -> inside_triangle b c a x.
Proof. intros (X & Y & Z). repeat split; assumption. Qed.

Section Mesh.
Variable pts : list vec2.
Notation pt := (dpt pts).
Definition ar (u v w : nat) : R := area2 (pt u) (pt v) (pt w).
Definition ins (u v w : nat) (x : vec2) : Prop := inside_triangle (pt u) (pt v) (pt w) x.
Definition rim (u v : nat) : Prop := u = 0%nat /\ v = 1%nat \/ u = 1%nat /\ v = 2%nat \/ u = 2%nat /\ v = 0%nat.
Definition off (V : list nat) (x : vec2) : Prop := forall i j, List.In i V -> List.In j V -> i <> j -> area2 (pt i) (pt j) x <> 0.
Record mesh (m : mem) (V : list nat) : Prop := {
  M_ids : NoDup (ids m);
  M_pos : forall t u v w n, dart m t u v w n -> 0 < ar u v w;
  M_in : forall t u v w n, dart m t u v w n -> List.In u V;
  M_adj : forall t u v w a, dart m t u v w (Some a) -> exists w', dart m a v u w' (Some t);
  M_rim : forall t u v w, dart m t u v w None -> rim u v;
  M_own : forall q t u v w n, List.In q V -> dart m t u v w n -> q = u \/ q = v \/ q = w \/ ar u v q < 0 \/ ar v w q < 0 \/ ar w u q < 0;
  M_cov : forall x, off V x -> ins 0 1 2 x -> exists t u v w n, dart m t u v w n /\ ins u v w x;
  M_one : forall x t u v w n t' u' v' w' n', off V x -> dart m t u v w n -> ins u v w x -> dart m t' u' v' w' n' -> ins u' v' w' x -> t = t' }.

Lemma ar_ne u v w : 0 < ar u v w -> u <> v /\ u <> w /\ v <> w.
Proof. unfold ar. intros H. repeat split; intros ->; rewrite ?area_self1, ?area_self2, ?area_self3 in H; lra. Qed.
Lemma ar_rot u v w : ar u v w = ar v w u. Proof. apply area_rot. Qed.
Lemma ar_swap u v w : ar u v w = - ar v u w. Proof. apply area_swap. Qed.
Lemma mesh_fun m V t u v w n v' w' n' : mesh m V -> dart m t u v w n -> dart m t u v' w' n' -> v' = v /\ w' = w /\ n' = n.
Proof. intros M D. destruct (ar_ne _ _ _ (M_pos _ _ M _ _ _ _ _ D)) as (A & B & C). apply dart_fun; assumption. Qed.
Lemma mesh_inj m V t T : mesh m V -> dget m t = Some T -> inj3 T.
Proof.
  intros M G. pose proof (get_dart m t T 0 G ltac:(lia)) as D. destruct (ar_ne _ _ _ (M_pos _ _ M _ _ _ _ _ D)) as (A & B & C). apply (inj3_ne T 0); auto.
Qed.
Lemma mesh_apex m V t a u v w w' n : mesh m V -> dart m t u v w (Some a) -> dart m a v u w' n -> n = Some t.
Proof. intros M D D'. destruct (M_adj _ _ M _ _ _ _ _ D) as (w2 & D2). destruct (mesh_fun _ _ _ _ _ _ _ _ _ _ M D2 D') as (_ & _ & E). exact E. Qed.
(** neighbours share one edge only *)
Lemma adj_unique m V t a u v w u' v' w' : mesh m V -> dart m t u v w (Some a) -> dart m t u' v' w' (Some a) -> u' = u /\ v' = v /\ w' = w.
Proof.
  intros M. assert (K : forall u v w, dart m t u v w (Some a) -> dart m t v w u (Some a) -> False).
  { intros f g h D D'. destruct (M_adj _ _ M _ _ _ _ _ D) as (x & X). destruct (M_adj _ _ M _ _ _ _ _ D') as (y & Y).
    pose proof (M_pos _ _ M _ _ _ _ _ D) as P. pose proof (M_pos _ _ M _ _ _ _ _ X) as PX. destruct (ar_ne _ _ _ P) as (N1 & N2 & N3).
    destruct (dart_only _ _ _ _ _ _ _ _ _ _ X Y) as [(E1 & E2 & E3)|[(E1 & E2 & E3)|(E1 & E2 & E3)]]; try congruence. subst x. rewrite ar_swap in PX. lra. }
  intros D D'. destruct (dart_only _ _ _ _ _ _ _ _ _ _ D D') as [E|[(-> & -> & ->)|(-> & -> & ->)]]; [exact E|exfalso; exact (K _ _ _ D D')|exfalso; exact (K _ _ _ D' D)].
Qed.
Lemma adj_self m V t u v w : mesh m V -> ~ dart m t u v w (Some t).
Proof.
  intros M D. destruct (M_adj _ _ M _ _ _ _ _ D) as (x & X). pose proof (M_pos _ _ M _ _ _ _ _ D) as P. pose proof (M_pos _ _ M _ _ _ _ _ X) as PX. destruct (ar_ne _ _ _ P) as (N1 & N2 & N3).
  destruct (dart_only _ _ _ _ _ _ _ _ _ _ D X) as [(E1 & E2 & E3)|[(E1 & E2 & E3)|(E1 & E2 & E3)]]; try congruence.
Qed.

(** ** flips *)
Section Flip.
Variables (m : mem) (V : list nat) (t a i ia : nat) (T A : dtri).
Hypothesis M : mesh m V.
Hypothesis GT : dget m t = Some T.
Hypothesis GA : dget m a = Some A.
Hypothesis I : (i < 3)%nat.
Hypothesis IA : (ia < 3)%nat.
Hypothesis AT : dadj T i = Some a.
Hypothesis AA : dadj A ia = Some t.
Let u := dv T i. Let v := dv T (nx i). Let p := dv T (nxx i). Let n := dv A (nxx ia).
Hypothesis BAD : pow (pt u) (pt v) (pt p) (pt n) <= 0.

Lemma flip_edge : dart m t u v p (Some a) /\ dart m a v u n (Some t).
Proof.
  pose proof (get_dart m t T i GT I) as D. rewrite AT in D. fold u v p in D. split; [exact D|]. pose proof (get_dart m a A ia GA IA) as E. rewrite AA in E. fold n in E.
  destruct (M_adj _ _ M _ _ _ _ _ D) as (x & X). destruct (adj_unique _ _ _ _ _ _ _ _ _ _ M E X) as (_ & _ & K). fold n in K. rewrite <- K. exact X.
Qed.
Lemma flip_corner : dv A ia = v /\ dv A (nx ia) = u.
Proof.
  destruct flip_edge as (D & _). pose proof (get_dart m a A ia GA IA) as E. rewrite AA in E. destruct (M_adj _ _ M _ _ _ _ _ D) as (x & X). destruct (adj_unique _ _ _ _ _ _ _ _ _ _ M E X) as (K1 & K2 & K3). auto.
Qed.
Lemma flip_signs : 0 < ar u v p /\ 0 < ar v u n /\ 0 < ar u n p /\ 0 < ar v p n.
Proof.
  destruct flip_edge as (D & E). pose proof (M_pos _ _ M _ _ _ _ _ D) as P. pose proof (M_pos _ _ M _ _ _ _ _ E) as Q. split; [exact P|]. split; [exact Q|].
  apply flip_convex; [exact P| |exact BAD]. fold (ar u v n). rewrite ar_swap. lra.
Qed.
Lemma flip_distinct : u <> v /\ u <> p /\ v <> p /\ v <> n /\ u <> n /\ p <> n.
Proof. destruct flip_signs as (A1 & A2 & A3 & A4). apply ar_ne in A1, A2, A3. intuition congruence. Qed.
Lemma flip_nodup : NoDup [u; v; p; n].
Proof. destruct flip_distinct as (A1 & A2 & A3 & A4 & A5 & A6). repeat constructor; cbn [List.In]; intuition congruence. Qed.
Lemma flip_self : t <> a.
Proof. intros E. destruct flip_edge as (D & _). rewrite <- E in D. exact (adj_self _ _ _ _ _ _ M D). Qed.
Lemma flip_aj : dart m a u n v (dadj A (nx ia)) /\ dart m a n v u (dadj A (nxx ia)).
Proof.
  destruct flip_corner as (E1 & E2). pose proof (get_dart m a A (nx ia) GA (nx_lt ia)) as D. rewrite nx_nx, nxx_nx, E1, E2 in D by exact IA.
  pose proof (get_dart m a A (nxx ia) GA (nxx_lt ia)) as D'. rewrite nx_nxx, nxx_nxx, E1, E2 in D' by exact IA. auto.
Qed.
Lemma flip_tj : dart m t v p u (dadj T (nx i)) /\ dart m t p u v (dadj T (nxx i)).
Proof.
  pose proof (get_dart m t T (nx i) GT (nx_lt i)) as D. rewrite nx_nx, nxx_nx in D by exact I.
  pose proof (get_dart m t T (nxx i) GT (nxx_lt i)) as D'. rewrite nx_nxx, nxx_nxx in D' by exact I. auto.
Qed.
Lemma flip_mesh : exists m' T' A', flip m T A t i a ia = Some m' /\ ids m' = ids m /\ dget m' t = Some T' /\ dget m' a = Some A' /\ dv T' i = u /\ dv T' (nxx i) = p /\ dadj T' i = dadj A (nx ia) /\
    dv A' (nxx ia) = n /\ dv A' (nx ia) = p /\ dadj A' (nxx ia) = dadj A (nxx ia) /\ mesh m' V /\
    (forall x X, x <> t -> x <> a -> dget m x = Some X -> exists X', dget m' x = Some X' /\ dv X' = dv X) /\
    forall x f g h e, dart m' x f g h e <->
      (x = t /\ (f = u /\ g = n /\ h = p /\ e = dadj A (nx ia) \/ f = n /\ g = p /\ h = u /\ e = Some a \/ f = p /\ g = u /\ h = n /\ e = dadj T (nxx i))) \/
      (x = a /\ (f = v /\ g = p /\ h = n /\ e = dadj T (nx i) \/ f = p /\ g = n /\ h = v /\ e = Some t \/ f = n /\ g = v /\ h = p /\ e = dadj A (nxx ia))) \/
      (x <> t /\ x <> a /\ exists e0, dart m x f g h e0 /\ e = if isb (dadj A (nx ia)) x && Nat.eqb f n then Some t else if isb (dadj T (nx i)) x && Nat.eqb f p then Some a else e0).
Proof.
  destruct flip_edge as (Dt & Da). destruct flip_corner as (EV & EU). destruct flip_signs as (S1 & S2 & S3 & S4). destruct flip_distinct as (Nuv & Nup & Nvp & Nvn & Nun & Npn). pose proof flip_nodup as ND. pose proof flip_self as NTA.
  destruct flip_aj as (Daj & Dak). destruct flip_tj as (Dtj & Dtk).
  destruct (flip_darts m t a T A i ia GT GA NTA I IA EV EU ND) as (m' & T' & A' & F & ID & G1 & G2 & V1 & V2 & A1 & W1 & W2 & A2 & KP & O).
  { intros b E. rewrite E in Daj. destruct (M_adj _ _ M _ _ _ _ _ Daj) as (x & X). split; [|split].
    - intros ->. destruct (dart_only _ _ _ _ _ _ _ _ _ _ Dt X) as [(E1 & _)|[(E1 & _)|(E1 & _)]]; congruence.
    - intros ->. exact (adj_self _ _ _ _ _ _ M Daj).
    - destruct (dart_get _ _ _ _ _ _ X) as (B & GB). exists B. split; [exact GB|]. exact (mesh_inj _ _ _ _ M GB). }
  { intros b E. rewrite E in Dtj. destruct (M_adj _ _ M _ _ _ _ _ Dtj) as (x & X). split; [|split].
    - intros ->. exact (adj_self _ _ _ _ _ _ M Dtj).
    - intros ->. destruct (dart_only _ _ _ _ _ _ _ _ _ _ Da X) as [(E1 & _)|[(E1 & _)|(E1 & _)]]; congruence.
    - destruct (dart_get _ _ _ _ _ _ X) as (B & GB). exists B. split; [exact GB|]. exact (mesh_inj _ _ _ _ M GB). }
  fold u v p n in V1, V2, W1, W2, O.
  exists m', T', A'. do 10 (split; [assumption|]). split; [|split; [exact KP|exact O]].
  assert (R1 : ar n p u = ar u n p) by (unfold ar; plane; ring). assert (R2 : ar p u n = ar u n p) by (unfold ar; plane; ring). assert (R3 : ar p n v = ar v p n) by (unfold ar; plane; ring). assert (R4 : ar n v p = ar v p n) by (unfold ar; plane; ring).
  assert (Q1 : ar v p u = ar u v p) by (unfold ar; plane; ring). assert (Q2 : ar n v u = ar v u n) by (unfold ar; plane; ring). assert (Q3 : ar p u v = ar u v p) by (unfold ar; plane; ring). assert (Q4 : ar u n v = ar v u n) by (unfold ar; plane; ring).
  assert (BK : forall x f g h e, dart m' x f g h e -> x <> t -> x <> a -> exists e0, dart m x f g h e0). { intros x f g h e D X Y. apply O in D. destruct D as [(D & _)|[(D & _)|(_ & _ & e0 & D & _)]]; [contradiction|contradiction|eauto]. }
  assert (FW : forall x f g h e, dart m x f g h e -> x <> t -> x <> a -> exists e0, dart m' x f g h e0). { intros x f g h e D X Y. eexists. apply O. right. right. split; [exact X|]. split; [exact Y|]. eexists. split; [exact D|reflexivity]. }
  assert (Nt : exists e0, dart m' t u n p e0) by (eexists; apply O; left; split; [reflexivity|]; left; repeat split; reflexivity).
  assert (Na : exists e0, dart m' a v p n e0) by (eexists; apply O; right; left; split; [reflexivity|]; left; repeat split; reflexivity).
  (* the triangles of the quadrangle, before and after *)
  assert (CUT : forall x, off V x -> ins u v p x \/ ins v u n x -> ins u n p x \/ ins v p n x).
  { intros x OX H. assert (O1 : area2 (pt n) (pt p) x <> 0) by (apply OX; [exact (M_in _ _ M _ _ _ _ _ Dak)|exact (M_in _ _ M _ _ _ _ _ Dtk)|congruence]).
    assert (O2 : area2 (pt p) (pt n) x <> 0) by (rewrite area_swap; lra). destruct H as [H|H].
    - apply quad_cut; assumption.
    - destruct (quad_cut (pt v) (pt u) (pt n) (pt p) x S2 S1 S4 S3 O2 H) as [K|K]; [right; apply inside_rot in K; exact (inside_rot _ _ _ _ (inside_rot _ _ _ _ K))|left; exact K]. }
  assert (JOIN : forall x, off V x -> ins u n p x \/ ins v p n x -> ins u v p x \/ ins v u n x).
  { intros x OX H. assert (O1 : area2 (pt v) (pt u) x <> 0) by (apply OX; [exact (M_in _ _ M _ _ _ _ _ Da)|exact (M_in _ _ M _ _ _ _ _ Dt)|congruence]).
    assert (O2 : area2 (pt u) (pt v) x <> 0) by (rewrite area_swap; lra).
    fold (ar n p u) in R1. destruct H as [H|H].
    - destruct (quad_cut (pt n) (pt p) (pt u) (pt v) x) as [K|K]; try exact O1; try (fold (ar n p u) (ar p n v) (ar n v u) (ar p u v); lra).
      + apply inside_rot. exact H.
      + right. apply inside_rot. exact K.
      + left. apply inside_rot. exact K.
    - destruct (quad_cut (pt p) (pt n) (pt v) (pt u) x) as [K|K]; try exact O2; try (fold (ar n p u) (ar p n v) (ar n v u) (ar p u v); lra).
      + apply inside_rot. exact H.
      + left. apply inside_rot. exact K.
      + right. apply inside_rot. exact K. }
  assert (Vu : List.In u V) by exact (M_in _ _ M _ _ _ _ _ Dt). assert (Vv : List.In v V) by exact (M_in _ _ M _ _ _ _ _ Da). assert (Vp : List.In p V) by exact (M_in _ _ M _ _ _ _ _ Dtk). assert (Vn : List.In n V) by exact (M_in _ _ M _ _ _ _ _ Dak).
  (* no point of V in the new triangles *)
  assert (OWN : forall q, List.In q V -> (q = u \/ q = n \/ q = p \/ ar u n q < 0 \/ ar n p q < 0 \/ ar p u q < 0) /\ (q = v \/ q = p \/ q = n \/ ar v p q < 0 \/ ar p n q < 0 \/ ar n v q < 0)).
  { intros q Q. destruct (Nat.eq_dec q u) as [->|N1]; [split; [tauto|]; right; right; right; right; left; rewrite ar_swap; lra|].
    destruct (Nat.eq_dec q v) as [->|N2]; [split; [|tauto]; right; right; right; right; left; rewrite ar_swap; lra|].
    destruct (Nat.eq_dec q p) as [->|N3]; [split; tauto|]. destruct (Nat.eq_dec q n) as [->|N4]; [split; tauto|].
    pose proof (M_own _ _ M _ _ _ _ _ _ Q Dt) as H1. pose proof (M_own _ _ M _ _ _ _ _ _ Q Da) as H2. pose proof (ar_swap u v q) as SW.
    assert (K1 : ar u v q < 0 \/ ar v p q < 0 \/ ar p u q < 0) by tauto. assert (K2 : ar v u q < 0 \/ ar u n q < 0 \/ ar n v q < 0) by tauto. clear H1 H2.
    assert (Z1 : ar v p p = 0) by apply area_self2. assert (Z2 : ar n v n = 0) by apply area_self1. assert (Z3 : ar u n n = 0) by apply area_self2. assert (Z4 : ar p u p = 0) by apply area_self1.
    split.
    - destruct (Rlt_le_dec (ar u n q) 0) as [L1|L1]; [tauto|]. destruct (Rlt_le_dec (ar n p q) 0) as [L2|L2]; [tauto|]. destruct (Rlt_le_dec (ar p u q) 0) as [L3|L3]; [tauto|]. exfalso.
      assert (0 <= ar v p q) by (apply (area_nonneg_in (pt u) (pt n) (pt p)); try assumption; fold (ar v p u) (ar v p n) (ar v p p); lra).
      assert (0 <= ar n v q) by (apply (area_nonneg_in (pt u) (pt n) (pt p)); try assumption; fold (ar n v u) (ar n v n) (ar n v p); lra). lra.
    - destruct (Rlt_le_dec (ar v p q) 0) as [L1|L1]; [tauto|]. destruct (Rlt_le_dec (ar p n q) 0) as [L2|L2]; [tauto|]. destruct (Rlt_le_dec (ar n v q) 0) as [L3|L3]; [tauto|]. exfalso.
      assert (0 <= ar p u q) by (apply (area_nonneg_in (pt v) (pt p) (pt n)); try assumption; fold (ar p u v) (ar p u n) (ar p u p); lra).
      assert (0 <= ar u n q) by (apply (area_nonneg_in (pt v) (pt p) (pt n)); try assumption; fold (ar u n v) (ar u n n) (ar u n p); lra). lra. }
  constructor.
  - rewrite ID. exact (M_ids _ _ M).
  - intros x f g h e D. apply O in D. destruct D as [(_ & [(-> & -> & -> & _)|[(-> & -> & -> & _)|(-> & -> & -> & _)]])|[(_ & [(-> & -> & -> & _)|[(-> & -> & -> & _)|(-> & -> & -> & _)]])|(_ & _ & e0 & D & _)]]; try lra. exact (M_pos _ _ M _ _ _ _ _ D).
  - intros x f g h e D. apply O in D. destruct D as [(_ & [(-> & -> & -> & _)|[(-> & -> & -> & _)|(-> & -> & -> & _)]])|[(_ & [(-> & -> & -> & _)|[(-> & -> & -> & _)|(-> & -> & -> & _)]])|(_ & _ & e0 & D & _)]]; try assumption. exact (M_in _ _ M _ _ _ _ _ D).
  - intros x f g h b D. apply O in D. destruct D as [(-> & [(-> & -> & -> & E)|[(-> & -> & -> & E)|(-> & -> & -> & E)]])|[(-> & [(-> & -> & -> & E)|[(-> & -> & -> & E)|(-> & -> & -> & E)]])|(X1 & X2 & e0 & D & E)]].
    + rewrite <- E in Daj. destruct (M_adj _ _ M _ _ _ _ _ Daj) as (h' & K). exists h'. apply O. right. right.
      split; [intros ->; destruct (dart_only _ _ _ _ _ _ _ _ _ _ Dt K) as [(E1 & _)|[(E1 & _)|(E1 & _)]]; congruence|]. split; [intros ->; exact (adj_self _ _ _ _ _ _ M Daj)|].
      exists (Some a). split; [exact K|]. rewrite <- E. cbn [isb]. rewrite !Nat.eqb_refl. reflexivity.
    + injection E as ->. exists v. apply O. right. left. split; [reflexivity|]. right. left. auto.
    + rewrite <- E in Dtk. destruct (M_adj _ _ M _ _ _ _ _ Dtk) as (h' & K). exists h'. apply O. right. right.
      split; [intros ->; exact (adj_self _ _ _ _ _ _ M Dtk)|]. split; [intros ->; destruct (dart_only _ _ _ _ _ _ _ _ _ _ Da K) as [(E1 & E2 & _)|[(E1 & E2 & _)|(E1 & E2 & _)]]; congruence|].
      exists (Some t). split; [exact K|]. destruct (Nat.eqb_spec u n); [congruence|]. destruct (Nat.eqb_spec u p); [congruence|]. rewrite !andb_false_r. reflexivity.
    + rewrite <- E in Dtj. destruct (M_adj _ _ M _ _ _ _ _ Dtj) as (h' & K). exists h'. apply O. right. right.
      split; [intros ->; exact (adj_self _ _ _ _ _ _ M Dtj)|]. split; [intros ->; destruct (dart_only _ _ _ _ _ _ _ _ _ _ Da K) as [(E1 & E2 & _)|[(E1 & E2 & _)|(E1 & E2 & _)]]; congruence|].
      exists (Some t). split; [exact K|]. destruct (Nat.eqb_spec p n); [congruence|]. rewrite andb_false_r, <- E. cbn [isb]. rewrite !Nat.eqb_refl. reflexivity.
    + injection E as ->. exists u. apply O. left. split; [reflexivity|]. right. left. auto.
    + rewrite <- E in Dak. destruct (M_adj _ _ M _ _ _ _ _ Dak) as (h' & K). exists h'. apply O. right. right.
      split; [intros ->; destruct (dart_only _ _ _ _ _ _ _ _ _ _ Dt K) as [(E1 & E2 & _)|[(E1 & E2 & _)|(E1 & E2 & _)]]; congruence|]. split; [intros ->; exact (adj_self _ _ _ _ _ _ M Dak)|].
      exists (Some a). split; [exact K|]. destruct (Nat.eqb_spec v n); [congruence|]. destruct (Nat.eqb_spec v p); [congruence|]. rewrite !andb_false_r. reflexivity.
    + destruct (isb (dadj A (nx ia)) x && Nat.eqb f n) eqn:B1; [|destruct (isb (dadj T (nx i)) x && Nat.eqb f p) eqn:B2].
      * injection E as ->. apply andb_true_iff in B1. destruct B1 as (B1 & B3). apply isb_true in B1. apply Nat.eqb_eq in B3. subst f. rewrite B1 in Daj. destruct (M_adj _ _ M _ _ _ _ _ Daj) as (h' & K).
        destruct (mesh_fun _ _ _ _ _ _ _ _ _ _ M K D) as (-> & _). exists p. apply O. left. split; [reflexivity|]. left. auto.
      * injection E as ->. apply andb_true_iff in B2. destruct B2 as (B2 & B3). apply isb_true in B2. apply Nat.eqb_eq in B3. subst f. rewrite B2 in Dtj. destruct (M_adj _ _ M _ _ _ _ _ Dtj) as (h' & K).
        destruct (mesh_fun _ _ _ _ _ _ _ _ _ _ M K D) as (-> & _). exists n. apply O. right. left. split; [reflexivity|]. left. auto.
      * subst e0. destruct (M_adj _ _ M _ _ _ _ _ D) as (h' & K). destruct (Nat.eq_dec b t) as [->|NB1]; [|destruct (Nat.eq_dec b a) as [->|NB2]].
        -- destruct (dart_only _ _ _ _ _ _ _ _ _ _ Dt K) as [(-> & -> & ->)|[(-> & -> & ->)|(-> & -> & ->)]].
           ++ destruct (mesh_fun _ _ _ _ _ _ _ _ _ _ M Dt K) as (_ & _ & E). congruence.
           ++ destruct (mesh_fun _ _ _ _ _ _ _ _ _ _ M Dtj K) as (_ & _ & E). rewrite <- E in B2. cbn [isb] in B2. rewrite !Nat.eqb_refl in B2. discriminate.
           ++ destruct (mesh_fun _ _ _ _ _ _ _ _ _ _ M Dtk K) as (_ & _ & E). exists n. apply O. left. split; [reflexivity|]. right. right. auto.
        -- destruct (dart_only _ _ _ _ _ _ _ _ _ _ Da K) as [(-> & -> & ->)|[(-> & -> & ->)|(-> & -> & ->)]].
           ++ destruct (mesh_fun _ _ _ _ _ _ _ _ _ _ M Da K) as (_ & _ & E). congruence.
           ++ destruct (mesh_fun _ _ _ _ _ _ _ _ _ _ M Daj K) as (_ & _ & E). rewrite <- E in B1. cbn [isb] in B1. rewrite !Nat.eqb_refl in B1. discriminate.
           ++ destruct (mesh_fun _ _ _ _ _ _ _ _ _ _ M Dak K) as (_ & _ & E). exists p. apply O. right. left. split; [reflexivity|]. right. right. auto.
        -- exists h'. apply O. right. right. split; [exact NB1|]. split; [exact NB2|]. exists (Some x). split; [exact K|].
           destruct (isb (dadj A (nx ia)) b && Nat.eqb g n) eqn:B3; [|destruct (isb (dadj T (nx i)) b && Nat.eqb g p) eqn:B4; [|reflexivity]]; exfalso.
           ++ apply andb_true_iff in B3. destruct B3 as (B3 & B4). apply isb_true in B3. apply Nat.eqb_eq in B4. subst g. rewrite B3 in Daj. destruct (M_adj _ _ M _ _ _ _ _ Daj) as (h2 & K2). destruct (mesh_fun _ _ _ _ _ _ _ _ _ _ M K2 K) as (_ & _ & E). congruence.
           ++ apply andb_true_iff in B4. destruct B4 as (B4 & B5). apply isb_true in B4. apply Nat.eqb_eq in B5. subst g. rewrite B4 in Dtj. destruct (M_adj _ _ M _ _ _ _ _ Dtj) as (h2 & K2). destruct (mesh_fun _ _ _ _ _ _ _ _ _ _ M K2 K) as (_ & _ & E). congruence.
  - intros x f g h D. apply O in D. destruct D as [(-> & [(-> & -> & -> & E)|[(-> & -> & -> & E)|(-> & -> & -> & E)]])|[(-> & [(-> & -> & -> & E)|[(-> & -> & -> & E)|(-> & -> & -> & E)]])|(X1 & X2 & e0 & D & E)]]; try discriminate.
    + rewrite <- E in Daj. exact (M_rim _ _ M _ _ _ _ Daj).
    + rewrite <- E in Dtk. exact (M_rim _ _ M _ _ _ _ Dtk).
    + rewrite <- E in Dtj. exact (M_rim _ _ M _ _ _ _ Dtj).
    + rewrite <- E in Dak. exact (M_rim _ _ M _ _ _ _ Dak).
    + destruct (isb (dadj A (nx ia)) x && Nat.eqb f n); [discriminate|]. destruct (isb (dadj T (nx i)) x && Nat.eqb f p); [discriminate|]. subst e0. exact (M_rim _ _ M _ _ _ _ D).
  - intros q x f g h e Q D. destruct (OWN q Q) as (K1 & K2). apply O in D. destruct D as [(_ & [(-> & -> & -> & _)|[(-> & -> & -> & _)|(-> & -> & -> & _)]])|[(_ & [(-> & -> & -> & _)|[(-> & -> & -> & _)|(-> & -> & -> & _)]])|(_ & _ & e0 & D & _)]]; try tauto. exact (M_own _ _ M _ _ _ _ _ _ Q D).
  - intros x OX IO. destruct (M_cov _ _ M x OX IO) as (y & f & g & h & e & D & IN). destruct (Nat.eq_dec y t) as [->|N1]; [|destruct (Nat.eq_dec y a) as [->|N2]].
    + assert (K : ins u n p x \/ ins v p n x). { apply CUT; [exact OX|]. left. destruct (dart_only _ _ _ _ _ _ _ _ _ _ Dt D) as [(-> & -> & ->)|[(-> & -> & ->)|(-> & -> & ->)]]; [exact IN|apply inside_rot, inside_rot; exact IN|apply inside_rot; exact IN]. }
      destruct K as [K|K]; [destruct Nt as (e0 & N)|destruct Na as (e0 & N)]; eauto 8.
    + assert (K : ins u n p x \/ ins v p n x). { apply CUT; [exact OX|]. right. destruct (dart_only _ _ _ _ _ _ _ _ _ _ Da D) as [(-> & -> & ->)|[(-> & -> & ->)|(-> & -> & ->)]]; [exact IN|apply inside_rot, inside_rot; exact IN|apply inside_rot; exact IN]. }
      destruct K as [K|K]; [destruct Nt as (e0 & N)|destruct Na as (e0 & N)]; eauto 8.
    + destruct (FW _ _ _ _ _ D N1 N2) as (e0 & N). eauto 8.
  - assert (IT : forall x f g h e, dart m' t f g h e -> ins f g h x -> ins u n p x).
    { intros x f g h e D IN. destruct Nt as (e0 & N). destruct (dart_only _ _ _ _ _ _ _ _ _ _ N D) as [(-> & -> & ->)|[(-> & -> & ->)|(-> & -> & ->)]]; [exact IN|apply inside_rot, inside_rot; exact IN|apply inside_rot; exact IN]. }
    assert (IAA : forall x f g h e, dart m' a f g h e -> ins f g h x -> ins v p n x).
    { intros x f g h e D IN. destruct Na as (e0 & N). destruct (dart_only _ _ _ _ _ _ _ _ _ _ N D) as [(-> & -> & ->)|[(-> & -> & ->)|(-> & -> & ->)]]; [exact IN|apply inside_rot, inside_rot; exact IN|apply inside_rot; exact IN]. }
    assert (NB : forall x, ins u n p x -> ins v p n x -> False). { intros x (X1 & X2 & X3) (Y1 & Y2 & Y3). rewrite area_swap in Y1. lra. }
    assert (OLD : forall x y f g h e, off V x -> ins u n p x \/ ins v p n x -> dart m y f g h e -> ins f g h x -> y = t \/ y = a).
    { intros x y f g h e OX H D IN. destruct (JOIN x OX H) as [K|K]; [left|right]; [exact (M_one _ _ M _ _ _ _ _ _ _ _ _ _ _ OX D IN Dt K)|exact (M_one _ _ M _ _ _ _ _ _ _ _ _ _ _ OX D IN Da K)]. }
    intros x y f g h e y' f' g' h' e' OX D IN D' IN'.
    destruct (Nat.eq_dec y t) as [->|N1]; [|destruct (Nat.eq_dec y a) as [->|N2]]; (destruct (Nat.eq_dec y' t) as [->|N3]; [|destruct (Nat.eq_dec y' a) as [->|N4]]); try reflexivity; [exfalso|exfalso|exfalso|exfalso|exfalso|exfalso|].
    + exact (NB x (IT _ _ _ _ _ D IN) (IAA _ _ _ _ _ D' IN')).
    + destruct (BK _ _ _ _ _ D' N3 N4) as (e0 & D0). destruct (OLD x y' f' g' h' e0 OX (or_introl (IT _ _ _ _ _ D IN)) D0 IN'); contradiction.
    + exact (NB x (IT _ _ _ _ _ D' IN') (IAA _ _ _ _ _ D IN)).
    + destruct (BK _ _ _ _ _ D' N3 N4) as (e0 & D0). destruct (OLD x y' f' g' h' e0 OX (or_intror (IAA _ _ _ _ _ D IN)) D0 IN'); contradiction.
    + destruct (BK _ _ _ _ _ D N1 N2) as (e0 & D0). destruct (OLD x y f g h e0 OX (or_introl (IT _ _ _ _ _ D' IN')) D0 IN); contradiction.
    + destruct (BK _ _ _ _ _ D N1 N2) as (e0 & D0). destruct (OLD x y f g h e0 OX (or_intror (IAA _ _ _ _ _ D' IN')) D0 IN); contradiction.
    + destruct (BK _ _ _ _ _ D N1 N2) as (e0 & D0). destruct (BK _ _ _ _ _ D' N3 N4) as (e1 & D1). exact (M_one _ _ M _ _ _ _ _ _ _ _ _ _ _ OX D0 IN D1 IN').
Qed.
End Flip.
End Mesh.

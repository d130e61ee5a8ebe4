(** Winding numbers of triangles *)
From Verif Require Import Base Spec SpecGeom SpecHull SpecClip ModelVec ModelElem ModelClip FactsVec FactsAlg FactsElem FactsSat FactsClip.
From Coq Require Import List Lia Lra ZArith.
Import ListNotations.
Open Scope R_scope.

Lemma spin_anti n a b p : spin n b a p = - spin n a b p.
Proof. unfold spin. spec_unfold. ring. Qed.
Lemma hop_anti n w p a b : hop n w p b a = (- hop n w p a b)%Z.
Proof. unfold hop. rewrite (spin_anti n a b p). destruct (Rle_dec (dot w a) (dot w p)), (Rle_dec (dot w b) (dot w p)); try reflexivity; destruct (Rlt_dec _ _), (Rlt_dec _ _); try reflexivity; lra. Qed.
Lemma hop_self n w p a : hop n w p a a = 0%Z.
Proof. unfold hop. destruct (Rle_dec (dot w a) (dot w p)); reflexivity. Qed.
Lemma dot_zero_norm n : n <> v3zero -> 0 < dot n n.
Proof. intros H. pose proof (dot_self_nonneg n). destruct (Rle_lt_or_eq_dec _ _ H0) as [K|K]; [exact K|]. exfalso. apply H, dot_self_zero. congruence. Qed.
Lemma coplanar3 n x y z : n <> v3zero -> dot n x = 0 -> dot n y = 0 -> dot n z = 0 ->
  vadd (vadd (vscale (dot n (cross y z)) x) (vscale (dot n (cross z x)) y)) (vscale (dot n (cross x y)) z) = v3zero.
Proof.
  intros N X Y Z. assert (I : vadd (vadd (vscale (dot n (cross y z)) x) (vscale (dot n (cross z x)) y)) (vscale (dot n (cross x y)) z) = vscale (dot x (cross y z)) n) by (apply vec3_ext; spec_unfold; ring).
  assert (K : dot x (cross y z) * dot n n = 0).
  { replace (dot x (cross y z) * dot n n) with (dot n (vscale (dot x (cross y z)) n)) by (clear; spec_unfold; ring). rewrite <- I.
    replace (dot n _) with (dot n (cross y z) * dot n x + dot n (cross z x) * dot n y + dot n (cross x y) * dot n z) by (clear; spec_unfold; ring). rewrite X, Y, Z. ring. }
  apply Rmult_integral in K. pose proof (dot_zero_norm n N). destruct K as [K|K]; [|lra]. rewrite I, K. apply vec3_ext; spec_unfold; ring.
Qed.
Section Tri.
Variables (n a b c p : vec3).
Hypothesis N : n <> v3zero.
Hypothesis D : 0 < spin n a b c.
Hypothesis Pa : dot n (vsub a p) = 0.
Hypothesis Pb : dot n (vsub b p) = 0.
Hypothesis Pc : dot n (vsub c p) = 0.
Let A := spin n b c p.
Let B := spin n c a p.
Let C := spin n a b p.
Lemma area_total : A + B + C = spin n a b c.
Proof. unfold A, B, C, spin. spec_unfold. ring. Qed.
Lemma bary : vscale (spin n a b c) p = vadd (vadd (vscale A a) (vscale B b)) (vscale C c).
Proof.
  assert (E : vadd (vadd (vscale A (vsub a p)) (vscale B (vsub b p))) (vscale C (vsub c p)) = v3zero).
  { rewrite <- (coplanar3 n (vsub a p) (vsub b p) (vsub c p) N Pa Pb Pc). f_equal; [f_equal|]; f_equal; unfold A, B, C, spin; spec_unfold; ring. }
  rewrite <- area_total. pose proof (f_equal vx E) as E1. pose proof (f_equal vy E) as E2. pose proof (f_equal vz E) as E3. clear E. clearbody A B C. clear N D Pa Pb Pc. revert E1 E2 E3. spec_unfold. cbn. intros. apply vec3_ext; cbn; lra.
Qed.
Lemma heights w : A * (dot w a - dot w p) + B * (dot w b - dot w p) + C * (dot w c - dot w p) = 0.
Proof.
  pose proof bary as E. apply (f_equal (dot w)) in E. rewrite <- area_total in E. clearbody A B C. clear N D Pa Pb Pc.
  replace (dot w (vscale (A + B + C) p)) with ((A + B + C) * dot w p) in E by (spec_unfold; ring). replace (dot w (vadd (vadd (vscale A a) (vscale B b)) (vscale C c))) with (A * dot w a + B * dot w b + C * dot w c) in E by (spec_unfold; ring). lra.
Qed.
Lemma areas_open : in_open_triangle a b c p <-> 0 < A /\ 0 < B /\ 0 < C.
Proof.
  split.
  - intros (s0 & s1 & s2 & P0 & P1 & P2 & S & E). assert (A = s0 * spin n a b c /\ B = s1 * spin n a b c /\ C = s2 * spin n a b c) as (-> & -> & ->).
    { unfold A, B, C. rewrite E. replace s0 with (1 - s1 - s2) by lra. unfold spin, comb3, comb2. clear. spec_unfold. repeat split; ring. }
    repeat split; apply Rmult_lt_0_compat; assumption.
  - intros (P0 & P1 & P2). pose proof area_total as T. exists (A / spin n a b c), (B / spin n a b c), (C / spin n a b c). repeat split; try (apply Rdiv_lt_0_compat; assumption); [rewrite <- T; field; lra|].
    pose proof bary as E. set (d := spin n a b c) in *. clearbody A B C d. pose proof (f_equal vx E) as E1. pose proof (f_equal vy E) as E2. pose proof (f_equal vz E) as E3. clear E N Pa Pb Pc. revert E1 E2 E3. unfold comb3, comb2. spec_unfold. cbn. intros. apply vec3_ext; cbn; apply (Rmult_eq_reg_l d); try lra; [rewrite E1|rewrite E2|rewrite E3]; field; lra.
Qed.
Lemma areas_closed : in_triangle a b c p <-> 0 <= A /\ 0 <= B /\ 0 <= C.
Proof.
  split.
  - intros (s0 & s1 & s2 & (P0 & P1 & P2 & S) & E). assert (A = s0 * spin n a b c /\ B = s1 * spin n a b c /\ C = s2 * spin n a b c) as (-> & -> & ->).
    { unfold A, B, C. rewrite E. replace s0 with (1 - s1 - s2) by lra. unfold spin, comb3, comb2. clear. spec_unfold. repeat split; ring. }
    repeat split; apply Rmult_le_pos; lra.
  - intros (P0 & P1 & P2). pose proof area_total as T. exists (A / spin n a b c), (B / spin n a b c), (C / spin n a b c). assert (I : 0 < / spin n a b c) by (apply Rinv_0_lt_compat, D). split; [unfold weights3, Rdiv; repeat split; try (apply Rmult_le_pos; lra); rewrite <- T; field; lra|].
    pose proof bary as E. set (d := spin n a b c) in *. clearbody A B C d. pose proof (f_equal vx E) as E1. pose proof (f_equal vy E) as E2. pose proof (f_equal vz E) as E3. clear E N Pa Pb Pc. revert E1 E2 E3. unfold comb3, comb2. spec_unfold. cbn. intros. apply vec3_ext; cbn; apply (Rmult_eq_reg_l d); try lra; [rewrite E1|rewrite E2|rewrite E3]; field; lra.
Qed.
Definition tri_wind (w : vec3) : Z := (hop n w p a b + (hop n w p b c + hop n w p c a))%Z.
Lemma wind_01 w : tri_wind w = 0%Z \/ tri_wind w = 1%Z.
Proof.
  pose proof (heights w) as H. pose proof area_total as T. unfold tri_wind, hop. fold A B C. clearbody A B C.
  destruct (Rle_dec (dot w a) (dot w p)), (Rle_dec (dot w b) (dot w p)), (Rle_dec (dot w c) (dot w p)); repeat destruct (Rlt_dec _ _); cbn; auto; exfalso; nra.
Qed.
Lemma wind_out w : ~ in_triangle a b c p -> tri_wind w = 0%Z.
Proof.
  intros O. assert (O' : A < 0 \/ B < 0 \/ C < 0). { destruct (Rlt_dec A 0); [auto|]. destruct (Rlt_dec B 0); [auto|]. destruct (Rlt_dec C 0); [auto|]. exfalso. apply O, areas_closed. lra. }
  pose proof (heights w) as H. pose proof area_total as T. clear O. unfold tri_wind, hop. fold A B C. clearbody A B C.
  destruct (Rle_dec (dot w a) (dot w p)), (Rle_dec (dot w b) (dot w p)), (Rle_dec (dot w c) (dot w p)); repeat destruct (Rlt_dec _ _); cbn; auto; exfalso; destruct O' as [O|[O|O]]; nra.
Qed.
Lemma wind_in w : cross n w <> v3zero -> in_open_triangle a b c p -> tri_wind w = 1%Z.
Proof.
  intros W I. apply areas_open in I. destruct I as (P0 & P1 & P2). pose proof (heights w) as H. pose proof area_total as T.
  assert (F : ~ (dot w a <= dot w p /\ dot w b <= dot w p /\ dot w c <= dot w p)).
  { intros (Q0 & Q1 & Q2). assert (Ea : dot w a - dot w p = 0) by nra. assert (Eb : dot w b - dot w p = 0) by nra.
    assert (K : forall x, dot n x = 0 -> dot w x = 0 -> exists k, x = vscale k (cross n w)).
    { intros x X1 X2. apply cross_zero_parallel; [exact W|]. replace (cross (cross n w) x) with (vsub (vscale (dot n x) w) (vscale (dot w x) n)) by (apply vec3_ext; spec_unfold; ring). rewrite X1, X2. apply vec3_ext; spec_unfold; ring. }
    destruct (K (vsub a p) Pa) as (k1 & E1); [rewrite <- Ea; spec_unfold; ring|]. destruct (K (vsub b p) Pb) as (k2 & E2); [rewrite <- Eb; spec_unfold; ring|].
    assert (Z : C = 0). { unfold C. replace (spin n a b p) with (dot n (cross (vsub a p) (vsub b p))) by (unfold spin; spec_unfold; ring). rewrite E1, E2. spec_unfold. ring. } lra. }
  unfold tri_wind, hop. fold A B C. clearbody A B C.
  destruct (Rle_dec (dot w a) (dot w p)), (Rle_dec (dot w b) (dot w p)), (Rle_dec (dot w c) (dot w p)); repeat destruct (Rlt_dec _ _); cbn; auto; exfalso; first [tauto|nra].
Qed.
End Tri.

(** Proofs about the octree. *)
From Verif Require Import Base Spec SpecGeom SpecBox SpecData ModelVec ModelBox ModelData ModelOctree FactsVec FactsAlg FactsBox FactsData FactsData2.
From Coq Require Import Lia Lra Permutation.
Open Scope R_scope.

(** ** regions *)
Definition slack (e : R) (b : aabox3) (p : vec3) : Prop :=
  (vx (bmin b) - e <= vx p <= vx (bmax b) + e) /\ (vy (bmin b) - e <= vy p <= vy (bmax b) + e) /\ (vz (bmin b) - e <= vz p <= vz (bmax b) + e).
Definition subreg (reg : aabox3) (i : oidx) : aabox3 := o_region (suboctant_create reg (zAABox3DCenter reg) i).
Definition cutlo (b : bool) (lo hi : R) : R := if b then (lo + hi) / 2 else lo.
Definition cuthi (b : bool) (lo hi : R) : R := if b then hi else (lo + hi) / 2.
Lemma zmin_le a b : a <= b -> zMin a b = a.
Proof. intros H. unfold zMin. destruct (Rltb_reflect a b); lra. Qed.
Lemma zmax_le a b : a <= b -> zMax a b = b.
Proof. intros H. unfold zMax. destruct (Rltb_reflect b a); lra. Qed.
Lemma center_eq reg : zAABox3DCenter reg = V3 ((vx (bmin reg) + vx (bmax reg)) / 2) ((vy (bmin reg) + vy (bmax reg)) / 2) ((vz (bmin reg) + vz (bmax reg)) / 2).
Proof. unfold zAABox3DCenter, zVec3DMid. apply vec3_ext; cbn [vx vy vz]; lra. Qed.
Lemma subreg_eq reg xb yb zb : proper reg -> subreg reg (OI xb yb zb) =
  B3 (V3 (cutlo xb (vx (bmin reg)) (vx (bmax reg))) (cutlo yb (vy (bmin reg)) (vy (bmax reg))) (cutlo zb (vz (bmin reg)) (vz (bmax reg))))
     (V3 (cuthi xb (vx (bmin reg)) (vx (bmax reg))) (cuthi yb (vy (bmin reg)) (vy (bmax reg))) (cuthi zb (vz (bmin reg)) (vz (bmax reg)))).
Proof.
  intros (H1 & H2 & H3). unfold subreg, suboctant_create, zVec3DOctantCreate, o_region, zAABox3DCreate. rewrite center_eq. cbn [vx vy vz].
  f_equal; (apply vec3_ext; cbn [vx vy vz]); unfold cutlo, cuthi.
  1: destruct xb; rewrite zmin_le; lra. 1: destruct yb; rewrite zmin_le; lra. 1: destruct zb; rewrite zmin_le; lra.
  1: destruct xb; rewrite zmax_le; lra. 1: destruct yb; rewrite zmax_le; lra. destruct zb; rewrite zmax_le; lra.
Qed.
Lemma cut_ok b lo hi : lo <= hi -> cutlo b lo hi <= cuthi b lo hi /\ lo <= cutlo b lo hi /\ cuthi b lo hi <= hi /\ cuthi b lo hi - cutlo b lo hi = (hi - lo) / 2.
Proof. intros H. unfold cutlo, cuthi. destruct b; repeat split; lra. Qed.
Lemma subreg_proper reg i : proper reg -> proper (subreg reg i).
Proof. intros P. destruct i as [xb yb zb]. rewrite subreg_eq by exact P. destruct P as (H1 & H2 & H3). unfold proper. cbn [bmin bmax vx vy vz]. repeat split; apply cut_ok; assumption. Qed.
Lemma subreg_dims reg i : proper reg -> zAABox3DDepth (subreg reg i) = zAABox3DDepth reg / 2 /\ zAABox3DWidth (subreg reg i) = zAABox3DWidth reg / 2 /\ zAABox3DHeight (subreg reg i) = zAABox3DHeight reg / 2.
Proof. intros P. destruct i as [xb yb zb]. rewrite subreg_eq by exact P. destruct P as (H1 & H2 & H3). unfold zAABox3DDepth, zAABox3DWidth, zAABox3DHeight. cbn [bmin bmax vx vy vz]. repeat split; apply cut_ok; assumption. Qed.
Lemma subreg_slack e reg i p : proper reg -> slack e (subreg reg i) p -> slack e reg p.
Proof.
  intros P. destruct i as [xb yb zb]. rewrite subreg_eq by exact P. destruct P as (H1 & H2 & H3). unfold slack. cbn [bmin bmax vx vy vz].
  pose proof (cut_ok xb _ _ H1). pose proof (cut_ok yb _ _ H2). pose proof (cut_ok zb _ _ H3). lra.
Qed.
Lemma index_slack e reg p : 0 <= e -> proper reg -> slack e reg p -> slack e (subreg reg (oct_index (zAABox3DCenter reg) p)) p.
Proof.
  intros E P. unfold oct_index. rewrite subreg_eq by exact P. destruct P as (H1 & H2 & H3). rewrite center_eq. cbn [vx vy vz]. unfold slack, cutlo, cuthi. cbn [bmin bmax vx vy vz]. intros (K1 & K2 & K3).
  repeat split; match goal with |- context [Rltb ?a ?b] => destruct (Rltb_reflect a b) end; lra.
Qed.
(** ** octants *)
Fixpoint opts (o : octant) : list vec3 := match o with ONull => [] | Oct _ _ pts sub => pts ++ flat_map (fun i => opts (sub i)) octs end.
Fixpoint owf (e res : R) (full : bool) (reg : aabox3) (o : octant) : Prop :=
  match o with
  | ONull => True
  | Oct r c pts sub =>
      r = reg /\ c = zAABox3DCenter reg /\ proper reg /\ Forall (slack e reg) pts /\
      (zVec3DOctantIsSmallest reg res = true -> forall i, sub i = ONull) /\ (full = true -> zVec3DOctantIsSmallest reg res = false -> pts = []) /\
      (forall i, owf e res full (subreg reg i) (sub i))
  end.
Lemma octs_all i : List.In i octs. Proof. destruct i as [[] [] []]; cbn; tauto. Qed.
Lemma octs_nodup : NoDup octs.
Proof. unfold octs. repeat constructor; cbn; intuition discriminate. Qed.
Lemma idx_eqb i j : oidx_eqb i j = true <-> i = j.
Proof. destruct i as [[] [] []], j as [[] [] []]; cbn; split; congruence. Qed.
Lemma idx_refl i : oidx_eqb i i = true. Proof. apply idx_eqb. reflexivity. Qed.
Lemma idx_dec (i j : oidx) : {i = j} + {i <> j}.
Proof. destruct (oidx_eqb i j) eqn:E; [left; apply idx_eqb; exact E|right; intros H; apply idx_eqb in H; congruence]. Qed.
Lemma set_sub_same s i o : set_sub s i o i = o. Proof. unfold set_sub. rewrite idx_refl. reflexivity. Qed.
Lemma set_sub_other s i o j : i <> j -> set_sub s i o j = s j.
Proof. intros H. unfold set_sub. destruct (oidx_eqb i j) eqn:E; [apply idx_eqb in E; congruence|reflexivity]. Qed.
Lemma flat_none {A B} (f : A -> list B) l : (forall x, List.In x l -> f x = []) -> flat_map f l = [].
Proof. induction l as [|x l IH]; intros H; [reflexivity|]. cbn. rewrite H by (left; reflexivity). apply IH. intros y Hy. apply H. right. exact Hy. Qed.
Lemma flat_perm {A B} (f g : A -> list B) l : (forall x, List.In x l -> Permutation (f x) (g x)) -> Permutation (flat_map f l) (flat_map g l).
Proof. induction l as [|x l IH]; intros H; [reflexivity|]. cbn. rewrite (H x) by (left; reflexivity). rewrite IH; [reflexivity|]. intros y Hy. apply H. right. exact Hy. Qed.
Lemma flat_one {A B} (f g : A -> list B) p i l : NoDup l -> List.In i l -> (forall j, j <> i -> f j = g j) -> Permutation (f i) (p :: g i) -> Permutation (flat_map f l) (p :: flat_map g l).
Proof.
  intros N H E Q. induction l as [|x l IH]; [destruct H|]. apply NoDup_cons_iff in N. destruct N as [N1 N2]. cbn [flat_map]. destruct H as [->|H].
  - rewrite Q. cbn [app]. apply perm_skip. rewrite (flat_perm f g l); [reflexivity|]. intros j Hj. rewrite E; [reflexivity|]. intros ->. tauto.
  - rewrite E by (intros ->; tauto). rewrite (IH N2 H). rewrite <- Permutation_middle. reflexivity.
Qed.
Lemma owf_in e res full o : forall reg p, owf e res full reg o -> List.In p (opts o) -> slack e reg p.
Proof.
  induction o as [|r c pts sub IH]; intros reg p W H; [destruct H|]. destruct W as (-> & _ & P & F & _ & _ & S). cbn [opts] in H. apply in_app_or in H. destruct H as [H|H].
  - apply (proj1 (Forall_forall _ _) F _ H).
  - apply in_flat_map in H. destruct H as (i & _ & H). eapply subreg_slack; [exact P|]. eapply IH; [apply S|exact H].
Qed.
Lemma owf_leaf e res full reg r c pts sub : owf e res full reg (Oct r c pts sub) -> zVec3DOctantIsSmallest reg res = true -> opts (Oct r c pts sub) = pts.
Proof. intros (_ & _ & _ & _ & L & _) K. cbn [opts]. rewrite flat_none; [apply app_nil_r|]. intros i _. rewrite (L K i). reflexivity. Qed.
Lemma owf_new e res full reg i : proper reg -> owf e res full (subreg reg i) (suboctant_create reg (zAABox3DCenter reg) i) /\ opts (suboctant_create reg (zAABox3DCenter reg) i) = [] /\ sub_null (suboctant_create reg (zAABox3DCenter reg) i) = false.
Proof.
  intros P. pose proof (subreg_proper reg i P) as P2. destruct i as [xb yb zb]. unfold subreg in *. unfold suboctant_create, zVec3DOctantCreate in *. cbn [o_region] in *. split; [|split; [cbn; reflexivity|reflexivity]]. cbn [owf]. repeat match goal with |- _ /\ _ => split end; auto. intros. exact I.
Qed.
Lemma alloc_ok e res full reg sub i : proper reg -> (forall i, owf e res full (subreg reg i) (sub i)) ->
  owf e res full (subreg reg i) (zVec3DOctantAllocSuboctant reg (zAABox3DCenter reg) sub i) /\ opts (zVec3DOctantAllocSuboctant reg (zAABox3DCenter reg) sub i) = opts (sub i) /\
  sub_null (zVec3DOctantAllocSuboctant reg (zAABox3DCenter reg) sub i) = false.
Proof.
  intros P S. unfold zVec3DOctantAllocSuboctant. destruct (sub i) as [|r c pts s] eqn:E; cbn [sub_null]; [apply owf_new; exact P|]. split; [rewrite <- E; apply S|auto].
Qed.
(** size of a region in terms of the resolution *)
Definition fits (n : nat) (res : R) (reg : aabox3) : Prop :=
  zAABox3DDepth reg < 2 ^ n * (res + zTOL) /\ zAABox3DWidth reg < 2 ^ n * (res + zTOL) /\ zAABox3DHeight reg < 2 ^ n * (res + zTOL).
Lemma fits0 res reg : fits 0 res reg -> zVec3DOctantIsSmallest reg res = true.
Proof. unfold fits, zVec3DOctantIsSmallest. cbn [pow]. intros (A & B & C). rewrite (proj2 (Rltb_true _ _)), (proj2 (Rltb_true _ _)), (proj2 (Rltb_true _ _)) by lra. reflexivity. Qed.
Lemma fits_sub n res reg i : proper reg -> fits (S n) res reg -> fits n res (subreg reg i).
Proof. intros P. unfold fits. destruct (subreg_dims reg i P) as (-> & -> & ->). cbn [pow]. lra. Qed.
Lemma fits_mono n m res reg : 0 < res + zTOL -> (n <= m)%nat -> fits n res reg -> fits m res reg.
Proof.
  intros K L (A & B & C). assert (H : 2 ^ n <= 2 ^ m) by (apply Rle_pow; [lra|exact L]). assert (2 ^ n * (res + zTOL) <= 2 ^ m * (res + zTOL)) by nra. unfold fits; lra.
Qed.
Lemma pow_grow B K : 0 < K -> exists n, B < 2 ^ n * K.
Proof.
  intros H. destruct (Pow_x_infinity 2 ltac:(rewrite Rabs_right; lra) (B / K + 1)) as (n & Hn). exists n. specialize (Hn n (le_n n)). rewrite Rabs_right in Hn by (apply Rle_ge, pow_le; lra).
  assert (E : B = B / K * K) by (field; lra). nra.
Qed.
Lemma fits_exists res reg : 0 < res + zTOL -> exists n, forall m, (n <= m)%nat -> fits m res reg.
Proof.
  intros K. destruct (pow_grow (zAABox3DDepth reg) _ K) as (a & Ha), (pow_grow (zAABox3DWidth reg) _ K) as (b & Hb), (pow_grow (zAABox3DHeight reg) _ K) as (c & Hc).
  exists (a + b + c)%nat. intros m Hm. unfold fits.
  assert (G : forall k, (k <= m)%nat -> 2 ^ k * (res + zTOL) <= 2 ^ m * (res + zTOL)) by (intros k Hk; apply Rmult_le_compat_r; [lra|apply Rle_pow; [lra|exact Hk]]).
  pose proof (G a ltac:(lia)). pose proof (G b ltac:(lia)). pose proof (G c ltac:(lia)). lra.
Qed.
Lemma smallest_sub res reg i : proper reg -> 0 < res + zTOL -> zVec3DOctantIsSmallest reg res = true -> zVec3DOctantIsSmallest (subreg reg i) res = true.
Proof.
  intros P K. unfold zVec3DOctantIsSmallest. destruct (subreg_dims reg i P) as (-> & -> & ->). destruct P as (H1 & H2 & H3). rewrite !andb_true_iff, !Rltb_true. unfold zAABox3DDepth, zAABox3DWidth, zAABox3DHeight. lra.
Qed.
Lemma smallest_mono res res' reg : res <= res' -> zVec3DOctantIsSmallest reg res = true -> zVec3DOctantIsSmallest reg res' = true.
Proof. intros L. unfold zVec3DOctantIsSmallest. rewrite !andb_true_iff, !Rltb_true. lra. Qed.
(** ** insertion *)
Lemma oct_add e res n : forall fuel o reg p, (n < fuel)%nat -> 0 <= e -> sub_null o = false -> owf e res true reg o -> fits n res reg -> slack e reg p ->
  exists o', zVec3DOctantAddPoint fuel o p res = Some o' /\ owf e res true reg o' /\ Permutation (opts o') (p :: opts o) /\ sub_null o' = false.
Proof.
  induction n as [|n IH]; intros [|fuel] o reg p L E N W F B; try lia; destruct o as [|r c pts sub]; try discriminate; cbn [zVec3DOctantAddPoint]; pose proof W as W'; destruct W as (-> & -> & P & FP & LF & IN & S).
  - rewrite fits0 by exact F. eexists. split; [reflexivity|]. split; [|split; [|reflexivity]].
    + cbn [owf]. repeat match goal with |- _ /\ _ => split end; auto. 2: rewrite fits0 by exact F; discriminate. apply Forall_app. split; [exact FP|constructor; [exact B|constructor]].
    + cbn [opts]. rewrite <- app_assoc. cbn [app]. rewrite <- Permutation_middle. reflexivity.
  - destruct (zVec3DOctantIsSmallest reg res) eqn:SM.
    + eexists. split; [reflexivity|]. split; [|split; [|reflexivity]].
      * cbn [owf]. repeat match goal with |- _ /\ _ => split end; auto. 2: rewrite SM; discriminate. apply Forall_app. split; [exact FP|constructor; [exact B|constructor]].
      * cbn [opts]. rewrite <- app_assoc. cbn [app]. rewrite <- Permutation_middle. reflexivity.
    + set (i := oct_index (zAABox3DCenter reg) p) in *. destruct (alloc_ok e res true reg sub i P S) as (A1 & A2 & A3).
      destruct (IH fuel _ (subreg reg i) p ltac:(lia) E A3 A1 (fits_sub _ _ _ _ P F) (index_slack e reg p E P B)) as (s & R1 & R2 & R3 & R4).
      rewrite R1. eexists. split; [reflexivity|]. split; [|split; [|reflexivity]].
      * cbn [owf]. repeat match goal with |- _ /\ _ => split end; auto; [rewrite SM; discriminate|]. intros j. destruct (idx_dec i j) as [<-|D]; [rewrite set_sub_same; exact R2|rewrite set_sub_other by exact D; apply S].
      * cbn [opts]. rewrite (IN eq_refl eq_refl). cbn [app]. apply (flat_one _ _ p i); [apply octs_nodup|apply octs_all| |rewrite set_sub_same, R3, A2; reflexivity]. intros j D. rewrite set_sub_other by congruence. reflexivity.
Qed.
(** ** change of resolution *)
Lemma owf_pre e res res' reg o : res' <= res -> owf e res true reg o -> owf e res' false reg o.
Proof.
  intros L. revert reg. induction o as [|r c pts sub IH]; intros reg W; [exact I|]. destruct W as (-> & -> & P & FP & LF & IN & S). cbn [owf]. repeat match goal with |- _ /\ _ => split end; auto; try discriminate.
  intros K. apply LF. eapply smallest_mono; eauto.
Qed.
Lemma divide_fold e res reg : 0 <= e -> proper reg -> forall pts sub, Forall (slack e reg) pts -> (forall i, owf e res false (subreg reg i) (sub i)) ->
  (forall i, owf e res false (subreg reg i) (fold_left (divide_step reg (zAABox3DCenter reg)) pts sub i)) /\
  Permutation (flat_map (fun i => opts (fold_left (divide_step reg (zAABox3DCenter reg)) pts sub i)) octs) (pts ++ flat_map (fun i => opts (sub i)) octs).
Proof.
  intros E P. induction pts as [|p pts IH]; intros sub F S; [split; [exact S|reflexivity]|]. inversion F as [|? ? Fp FF]; subst. cbn [fold_left].
  assert (H : (forall i, owf e res false (subreg reg i) (divide_step reg (zAABox3DCenter reg) sub p i)) /\ Permutation (flat_map (fun i => opts (divide_step reg (zAABox3DCenter reg) sub p i)) octs) (p :: flat_map (fun i => opts (sub i)) octs)).
  { unfold divide_step. set (i := oct_index (zAABox3DCenter reg) p). destruct (alloc_ok e res false reg sub i P S) as (A1 & A2 & A3). destruct (zVec3DOctantAllocSuboctant reg (zAABox3DCenter reg) sub i) as [|r c q s]; [discriminate|]. clear A3.
    split.
    - intros j. destruct (idx_dec i j) as [<-|D]; [rewrite set_sub_same|rewrite set_sub_other by exact D; apply S]. destruct A1 as (-> & -> & B1 & B2 & B3 & B4 & B5). cbn [owf]. repeat match goal with |- _ /\ _ => split end; auto; try discriminate. apply Forall_app. split; [exact B2|constructor; [apply (index_slack e reg p E P Fp)|constructor]].
    - apply (flat_one _ _ p i); [apply octs_nodup|apply octs_all| |]; [intros j D; rewrite set_sub_other by congruence; reflexivity|]. rewrite set_sub_same, <- A2. cbn [opts]. rewrite <- app_assoc. cbn [app]. rewrite <- Permutation_middle. reflexivity. }
  destruct H as [H1 H2]. destruct (IH _ FF H1) as [I1 I2]. split; [exact I1|]. rewrite I2, H2. cbn [app]. rewrite <- Permutation_middle. reflexivity.
Qed.
Lemma all_sub_ok f : (forall i, exists o, f i = Some o) -> exists s, all_sub f = Some s /\ forall i, f i = Some (s i).
Proof.
  intros H. unfold all_sub. rewrite (proj2 (forallb_forall _ _)).
  - eexists. split; [reflexivity|]. intros i. cbv beta. destruct (H i) as (o & ->). reflexivity.
  - intros i _. destruct (H i) as (o & ->). reflexivity.
Qed.
Lemma oct_divide e res n : forall fuel o reg, (n < fuel)%nat -> 0 <= e -> owf e res false reg o -> fits n res reg ->
  exists o', zVec3DOctantDivide fuel o res = Some o' /\ owf e res true reg o' /\ Permutation (opts o') (opts o) /\ sub_null o' = sub_null o.
Proof.
  assert (LEAF : forall reg r c pts sub, owf e res false reg (Oct r c pts sub) -> zVec3DOctantIsSmallest reg res = true -> owf e res true reg (Oct r c pts sub)).
  { intros reg r c pts sub (-> & -> & P & FP & LF & IN & S) K. cbn [owf]. repeat match goal with |- _ /\ _ => split end; auto; [rewrite K; discriminate|]. intros i. rewrite (LF K i). exact I. }
  induction n as [|n IH]; intros [|fuel] o reg L E W F; try lia; destruct o as [|r c pts sub]; try (exists ONull; repeat split; reflexivity); cbn [zVec3DOctantDivide]; pose proof W as W'; destruct W as (-> & -> & P & FP & LF & IN & S).
  - rewrite fits0 by exact F. eexists. split; [reflexivity|split; [apply LEAF; auto using fits0|split; reflexivity]].
  - destruct (zVec3DOctantIsSmallest reg res) eqn:SM; [eexists; split; [reflexivity|split; [apply LEAF; auto|split; reflexivity]]|].
    destruct (divide_fold e res reg E P (rev pts) sub ltac:(apply Forall_rev; exact FP) S) as [D1 D2].
    set (sub' := fold_left (divide_step reg (zAABox3DCenter reg)) (rev pts) sub) in *.
    destruct (all_sub_ok (fun i => zVec3DOctantDivide fuel (sub' i) res)) as (s & A1 & A2).
    { intros i. destruct (IH fuel (sub' i) (subreg reg i) ltac:(lia) E (D1 i) (fits_sub _ _ _ _ P F)) as (o' & R & _). exists o'. exact R. }
    rewrite A1. assert (G : forall i, owf e res true (subreg reg i) (s i) /\ Permutation (opts (s i)) (opts (sub' i))).
    { intros i. destruct (IH fuel (sub' i) (subreg reg i) ltac:(lia) E (D1 i) (fits_sub _ _ _ _ P F)) as (o' & R & R2 & R3 & _). specialize (A2 i). rewrite R in A2. inversion A2. subst o'. auto. }
    eexists. split; [reflexivity|]. split; [|split; [|reflexivity]].
    + cbn [owf]. repeat match goal with |- _ /\ _ => split end; auto; [rewrite SM; discriminate|]. intros i. apply G.
    + cbn [opts app]. rewrite (flat_perm _ (fun i => opts (sub' i))) by (intros i _; apply G). rewrite D2. rewrite <- Permutation_rev. reflexivity.
Qed.
Lemma oct_merge e res res' o : res <= res' -> 0 < res' + zTOL -> forall reg, owf e res true reg o ->
  owf e res' true reg (zVec3DOctantMerge o res') /\ Permutation (opts (zVec3DOctantMerge o res')) (opts o) /\ sub_null (zVec3DOctantMerge o res') = sub_null o.
Proof.
  intros L K. induction o as [|r c pts sub IH]; intros reg W; [repeat split; reflexivity|]. destruct W as (-> & -> & P & FP & LF & IN & S). cbn [zVec3DOctantMerge].
  assert (G : forall i, owf e res' true (subreg reg i) (zVec3DOctantMerge (sub i) res') /\ Permutation (opts (zVec3DOctantMerge (sub i) res')) (opts (sub i))) by (intros i; destruct (IH i _ (S i)) as (G1 & G2 & _); auto).
  destruct (zVec3DOctantIsSmallest reg res') eqn:SM.
  - assert (Q : forall i, o_points (zVec3DOctantMerge (sub i) res') = opts (zVec3DOctantMerge (sub i) res')).
    { intros i. destruct (G i) as [G1 _]. destruct (zVec3DOctantMerge (sub i) res') as [|r' c' p' s']; [reflexivity|]. rewrite (owf_leaf e res' true (subreg reg i)); auto. apply smallest_sub; auto. }
    assert (PP : Permutation (merge_points pts (fun i => zVec3DOctantMerge (sub i) res')) (opts (Oct reg (zAABox3DCenter reg) pts sub))).
    { unfold merge_points. cbn [opts]. apply Permutation_app_head. apply flat_perm. intros i _. rewrite Q. apply G. }
    split; [|split; [|reflexivity]].
    + cbn [owf]. repeat match goal with |- _ /\ _ => split end; auto. 2: rewrite SM; discriminate. 2: intros; exact I.
      apply Forall_forall. intros p Hp. rewrite PP in Hp. eapply (owf_in e res true (Oct reg (zAABox3DCenter reg) pts sub)); [|exact Hp]. cbn [owf]. repeat match goal with |- _ /\ _ => split end; auto.
    + cbn [opts]. rewrite (flat_none (fun i => opts (no_sub i))) by reflexivity. rewrite app_nil_r. exact PP.
  - split; [|split; [|reflexivity]].
    + cbn [owf]. repeat match goal with |- _ /\ _ => split end; auto; [rewrite SM; discriminate| |intros i; apply G]. intros _ _. apply IN; [reflexivity|]. destruct (zVec3DOctantIsSmallest reg res) eqn:S2; [|reflexivity]. rewrite (smallest_mono res res' reg L S2) in SM. discriminate.
    + cbn [opts]. apply Permutation_app_head. apply flat_perm. intros i _. apply G.
Qed.

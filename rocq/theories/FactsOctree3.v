(** Statements about octrees in terms of what users call. *)
From Verif Require Import Base Spec SpecGeom SpecBox SpecData SpecOctree ModelVec ModelBox ModelData ModelOctree FactsVec FactsAlg FactsBox FactsData FactsData2 FactsTree FactsOctree FactsOctree2.
From Coq Require Import Lia Lra Permutation.
Open Scope R_scope.

Definition box_of (x1 y1 z1 x2 y2 z2 : R) : aabox3 := zAABox3DCreate x1 y1 z1 x2 y2 z2.
Lemma init_ok e x1 y1 z1 x2 y2 z2 res : 0 <= res -> tok e (box_of x1 y1 z1 x2 y2 z2) (zVec3DOctreeInit x1 y1 z1 x2 y2 z2 res) /\ opts (o_root (zVec3DOctreeInit x1 y1 z1 x2 y2 z2 res)) = [] /\ proper (box_of x1 y1 z1 x2 y2 z2).
Proof.
  intros H. assert (P : proper (box_of x1 y1 z1 x2 y2 z2)) by (destruct (aab_create x1 y1 z1 x2 y2 z2) as [P _]; exact P). split; [|split; [reflexivity|exact P]].
  unfold tok, zVec3DOctreeInit, zVec3DOctantCreate. cbn [o_root o_res]. split; [|split; [reflexivity|exact H]]. cbn [owf]. repeat match goal with |- _ /\ _ => split end; auto. intros; exact I.
Qed.
Lemma betw_box x1 y1 z1 x2 y2 z2 p : betw x1 x2 (vx p) -> betw y1 y2 (vy p) -> betw z1 z2 (vz p) -> slack 0 (box_of x1 y1 z1 x2 y2 z2) p /\ zVec3DOctantPointIsInside (box_of x1 y1 z1 x2 y2 z2) p = true.
Proof.
  intros X Y Z. pose proof zTOL_pos as ZP. assert (G : forall a b x, betw a b x -> zMin a b <= x <= zMax a b) by (intros a b x; unfold betw, zMin, zMax; repeat match goal with |- context [Rltb ?u ?v] => destruct (Rltb_reflect u v) end; lra).
  unfold zVec3DOctantPointIsInside. rewrite aab_inside. unfold slack, box_of, zAABox3DCreate. cbn [bmin bmax vx vy vz]. pose proof (G _ _ _ X). pose proof (G _ _ _ Y). pose proof (G _ _ _ Z). lra.
Qed.
Definition right_answers (t : octree) (ps : list vec3) : Prop :=
  (forall q r, 0 <= r -> exists v d l, zVec3DOctreeVicinity t q r = Some v /\ zVecXDDataToAddrList v = Some (d, l) /\ Permutation l (filter (fun p => Rltb (dist p q) r) ps)) /\
  (forall q, ps <> [] -> exists v, zVec3DOctreeNN t q = (Some v, Some (dist v q)) /\ List.In v ps /\ forall y, List.In y ps -> dist v q <= dist y q) /\
  (forall q, ps = [] -> zVec3DOctreeNN t q = (None, None)).
Lemma lwf_answers reg t ps : lwf 0 reg (o_root t) -> Permutation (opts (o_root t)) ps -> right_answers t ps.
Proof.
  intros W P. split; [|split].
  - intros q r Hr. destruct (oct_vic q (r * r) (o_root t) reg W ltac:(nra) zVecXDDataInitAddrList Logic.I eq_refl) as (v & E & WV & _ & C). destruct (to_addr_list v WV) as (d & T & _). exists v, d, (contents v). split; [exact E|split; [exact T|]].
    rewrite C. cbn [contents zVecXDDataInitAddrList d_method listlike d_store app]. unfold nearf. rewrite (filter_ext _ (fun p => Rltb (dist p q) r)); [|intros p; rewrite sqd3; apply rltb_sqr; auto using dist_nonneg]. apply filter_perm. exact P.
  - intros q NE. pose proof (octree_nn 0 reg t q ltac:(lra) W) as B. destruct (zVec3DOctreeNN t q) as [[v|] [d|]]; cbn [obest] in B; try tauto.
    + destruct B as (B1 & -> & B3). exists v. split; [reflexivity|split; [rewrite <- P; exact B1|]]. intros y Hy. rewrite <- P in Hy. specialize (B3 y Hy). lra.
    + exfalso. destruct ps as [|x ps]; [congruence|]. apply (B x). rewrite P. left. reflexivity.
  - intros q ->. pose proof (octree_nn 0 reg t q ltac:(lra) W) as B. destruct (zVec3DOctreeNN t q) as [[v|] [d|]]; cbn [obest] in B; try tauto. destruct B as (B1 & _). rewrite P in B1. destruct B1.
Qed.
Lemma accept_all reg h : (forall p, List.In p (inserted h) -> zVec3DOctantPointIsInside reg p = true) -> accepted reg h = inserted h.
Proof.
  unfold accepted. intros H. induction (inserted h) as [|x l IH]; [reflexivity|]. cbn [filter]. rewrite H by (left; reflexivity). f_equal. apply IH. intros p Hp. apply H. right. exact Hp.
Qed.
Lemma octree_history x1 y1 z1 x2 y2 z2 res h : 0 <= res -> sane h ->
  (forall p, List.In p (inserted h) -> betw x1 x2 (vx p) /\ betw y1 y2 (vy p) /\ betw z1 z2 (vz p)) ->
  exists n, forall fuel, (n <= fuel)%nat -> exists t, run_oops fuel (zVec3DOctreeInit x1 y1 z1 x2 y2 z2 res) h = Some t /\ right_answers t (inserted h) /\
  (forall p, List.In p (inserted h) -> exists b, List.In b (zVec3DOctantToAABox3DList (o_root t)) /\ in_box b p).
Proof.
  intros Hr SN IN. destruct (init_ok 0 x1 y1 z1 x2 y2 z2 res Hr) as (T & O & P). set (reg := box_of x1 y1 z1 x2 y2 z2) in *.
  destruct (history_ok 0 reg h ltac:(lra)) with (t := zVec3DOctreeInit x1 y1 z1 x2 y2 z2 res) as (n & H); auto.
  { intros p Hp _. destruct (IN p Hp) as (A & B & C). apply (betw_box x1 y1 z1 x2 y2 z2); auto. }
  exists n. intros fuel L. destruct (H fuel L) as (t & R & (W & N & _) & PP). exists t. split; [exact R|]. rewrite O, app_nil_r, accept_all in PP by (intros p Hp; destruct (IN p Hp) as (A & B & C); apply (betw_box x1 y1 z1 x2 y2 z2); auto).
  split; [apply (lwf_answers reg); [eapply owf_lwf; exact W|exact PP]|].
  assert (G : forall o reg, lwf 0 reg o -> sub_null o = false -> forall p, List.In p (opts o) -> exists b, List.In b (zVec3DOctantToAABox3DList o) /\ in_box b p).
  { clear. induction o as [|r c pts sub IH]; intros reg W N p Hp; [discriminate|]. pose proof (lwf_in 0 _ reg p W Hp) as SL. destruct W as (-> & PR & F & LF & SUB). cbn [zVec3DOctantToAABox3DList].
    destruct (existsb (fun i => negb (sub_null (sub i))) octs) eqn:EX.
    - cbn [opts] in Hp. assert (PE : pts = []). { destruct pts; [reflexivity|]. apply existsb_exists in EX. destruct EX as (i & _ & K). rewrite LF in K by discriminate. discriminate. } subst pts. cbn [app] in Hp.
      apply in_flat_map in Hp. destruct Hp as (i & Hi & Hp). assert (Ni : sub_null (sub i) = false) by (destruct (sub i); [destruct Hp|reflexivity]). destruct (IH i _ (SUB i) Ni p Hp) as (b & B1 & B2). exists b. split; [|exact B2]. apply in_flat_map. exists i. auto.
    - exists reg. split; [left; reflexivity|]. unfold slack in SL. unfold in_box. lra. }
  intros p Hp. apply (G _ reg); [eapply owf_lwf; exact W|exact N|rewrite PP; exact Hp].
Qed.
(** points up to the tolerance outside are accepted; answers are then right up to the tolerance *)
Lemma octree_tolerance x1 y1 z1 x2 y2 z2 res h : 0 <= res -> sane h -> let reg := box_of x1 y1 z1 x2 y2 z2 in
  let acc := filter (fun p => zAABox3DPointIsInside reg p zTOL) (inserted h) in
  exists n, forall fuel, (n <= fuel)%nat -> exists t, run_oops fuel (zVec3DOctreeInit x1 y1 z1 x2 y2 z2 res) h = Some t /\
  (forall q, acc <> [] -> exists v, zVec3DOctreeNN t q = (Some v, Some (dist v q)) /\ List.In v acc /\ forall y, List.In y acc -> dist v q <= dist y q + 2 * zTOL) /\
  (forall p, exists n', forall fuel', (n' <= fuel')%nat -> exists t', zVec3DOctreeAddPoint fuel' t p = Some (t', zAABox3DPointIsInside reg p zTOL) /\ (zAABox3DPointIsInside reg p zTOL = false -> t' = t)) /\
  (forall p, match zVec3DOctreeFindContainer t p with None => zAABox3DPointIsInside reg p zTOL = false | Some c => zAABox3DPointIsInside reg p zTOL = true /\ zAABox3DPointIsInside (o_region c) p zTOL = true end).
Proof.
  intros Hr SN reg acc. pose proof zTOL_pos as ZP. destruct (init_ok zTOL x1 y1 z1 x2 y2 z2 res Hr) as (T & O & P). fold reg in T, P.
  destruct (history_ok zTOL reg h ltac:(lra)) with (t := zVec3DOctreeInit x1 y1 z1 x2 y2 z2 res) as (n & H); auto.
  { intros p Hp K. apply inside_slack. exact K. }
  exists n. intros fuel L. destruct (H fuel L) as (t & R & TT & PP). exists t. rewrite O, app_nil_r in PP. change (accepted reg h) with acc in PP. pose proof TT as TT'. destruct TT as (W & N & R0). split; [exact R|split; [|split]].
  - intros q NE. pose proof (octree_nn zTOL reg t q ltac:(lra) ltac:(eapply owf_lwf; exact W)) as B. destruct (zVec3DOctreeNN t q) as [[v|] [d|]]; cbn [obest] in B; try tauto.
    + destruct B as (B1 & -> & B3). exists v. split; [reflexivity|split; [rewrite <- PP; exact B1|]]. intros y Hy. rewrite <- PP in Hy. exact (B3 y Hy).
    + exfalso. destruct acc as [|x ps]; [congruence|]. apply (B x). rewrite PP. left. reflexivity.
  - intros p. destruct (tok_region _ _ _ TT') as (c & pts & sub & ER & _). unfold zVec3DOctreeAddPoint. rewrite ER. unfold zVec3DOctantPointIsInside. destruct (zAABox3DPointIsInside reg p zTOL) eqn:IN; cbn [negb].
    + destruct (fits_exists (o_res t) reg ltac:(lra)) as (n' & F). exists (S n'). intros fuel' L'. destruct (oct_add zTOL (o_res t) n' fuel' (o_root t) reg p ltac:(lia) ltac:(lra) N W (F n' (le_n n')) (inside_slack _ _ IN)) as (o' & A1 & _). rewrite <- ER, A1. eexists. split; [reflexivity|discriminate].
    + exists 0%nat. intros fuel' _. exists t. auto.
  - intros p. unfold zVec3DOctreeFindContainer. destruct (tok_region _ _ _ TT') as (c & pts & sub & ER & _). 
    assert (G : forall o c, zVec3DOctantFindContainer o p = Some c -> zVec3DOctantPointIsInside (o_region c) p = true).
    { clear. induction o as [|r ce pts sub IH]; intros c H; [discriminate|]. cbn [zVec3DOctantFindContainer] in H. destruct (negb (zVec3DOctantPointIsInside r p)) eqn:IN; [discriminate|].
      assert (G : forall l acc s, (forall a, acc = Some a -> zVec3DOctantPointIsInside (o_region a) p = true) -> fold_left (fun found i => match found with Some _ => found | None => zVec3DOctantFindContainer (sub i) p end) l acc = Some s -> zVec3DOctantPointIsInside (o_region s) p = true).
      { induction l as [|i l IHl]; intros acc s A F; cbn [fold_left] in F; [apply A; exact F|]. eapply IHl; [|exact F]. intros a E. destruct acc as [b|]; [apply A; exact E|]. eapply IH; exact E. }
      destruct (fold_left _ octs None) as [s|] eqn:F; inversion H; subst; [eapply G; [|exact F]; discriminate|]. cbn [o_region]. apply negb_false_iff in IN. exact IN. }
    destruct (zVec3DOctantFindContainer (o_root t) p) as [s|] eqn:F.
    + split; [|exact (G _ _ F)]. rewrite ER in F. cbn [zVec3DOctantFindContainer] in F. unfold zVec3DOctantPointIsInside in F. destruct (zAABox3DPointIsInside reg p zTOL); [reflexivity|discriminate].
    + rewrite ER in F. cbn [zVec3DOctantFindContainer] in F. unfold zVec3DOctantPointIsInside in F at 1. destruct (zAABox3DPointIsInside reg p zTOL); [|reflexivity]. cbn [negb] in F. destruct (fold_left _ octs None); discriminate.
Qed.
(** ** automatic region *)
Lemma ceil_spec x : x <= ceil x < x + 1.
Proof. unfold ceil. destruct (base_Int_part (- x)). lra. Qed.
Lemma log_ok x : 0 <= x -> match ceil_log2 x with None => x = 0 | Some e => x <= Rpower 2 e end.
Proof.
  intros H. unfold ceil_log2. destruct (Reqb_reflect x 0) as [->|NE]; [reflexivity|]. assert (X : 0 < x) by lra. assert (L2 : 0 < ln 2) by (rewrite <- ln_1; apply ln_increasing; lra).
  rewrite <- (exp_ln x X) at 1. unfold Rpower. destruct (Rle_lt_or_eq_dec (ln x) (ceil (ln x / ln 2) * ln 2)) as [LT|EQ].
  - destruct (ceil_spec (ln x / ln 2)) as [A _]. apply (Rmult_le_compat_r (ln 2)) in A; [|lra]. unfold Rdiv in A at 1. rewrite Rmult_assoc, Rinv_l, Rmult_1_r in A by lra. exact A.
  - left. apply exp_increasing. exact LT.
  - right. f_equal. exact EQ.
Qed.
Lemma ceil_int x : exists k, ceil x = IZR k.
Proof. exists (- Int_part (- x))%Z. unfold ceil. rewrite opp_IZR. reflexivity. Qed.
Lemma octree_auto reg res : proper reg -> 0 < res -> exists h, let c := zAABox3DCenter reg in
  zVec3DOctreeInitAuto reg res = zVec3DOctreeInit (vx c - h) (vy c - h) (vz c - h) (vx c + h) (vy c + h) (vz c + h) res /\
  (exists k : nat, 2 * h = 2 ^ S k * res) /\
  (forall p, in_box reg p -> betw (vx c - h) (vx c + h) (vx p) /\ betw (vy c - h) (vy c + h) (vy p) /\ betw (vz c - h) (vz c + h) (vz p)).
Proof.
  intros (P1 & P2 & P3) Hr. unfold zVec3DOctreeInitAuto. cbv zeta.
  set (dx := zAABox3DDepth reg / res). set (dy := zAABox3DWidth reg / res). set (dz := zAABox3DHeight reg / res).
  assert (IR : 0 < / res) by (apply Rinv_0_lt_compat; exact Hr).
  assert (NX : 0 <= dx) by (unfold dx, zAABox3DDepth, Rdiv; nra). assert (NY : 0 <= dy) by (unfold dy, zAABox3DWidth, Rdiv; nra). assert (NZ : 0 <= dz) by (unfold dz, zAABox3DHeight, Rdiv; nra).
  set (e := omax _ _). set (p := match e with None => 0 | Some e => Rpower 2 (e - 1) end). set (h := res * zMax p 1). exists h.
  assert (MX : forall a b, zMax a b = a \/ zMax a b = b) by (intros a b; unfold zMax; destruct (Rltb b a); auto).
  assert (ML : forall a b, a <= zMax a b /\ b <= zMax a b) by (intros a b; unfold zMax; destruct (Rltb_reflect b a); lra).
  assert (POW : forall a b, a <= b -> Rpower 2 a <= Rpower 2 b) by (intros a b H; apply Rle_Rpower; lra).
  assert (BD : forall x, 0 <= x -> (forall u, ceil_log2 x = Some u -> exists v, e = Some v /\ u <= v) -> x <= 2 * zMax p 1).
  { intros x Hx K. pose proof (log_ok x Hx) as LO. destruct (ceil_log2 x) as [u|]; [|destruct (ML p 1); lra]. destruct (K u eq_refl) as (v & EV & UV). unfold p. rewrite EV. destruct (ML (Rpower 2 (v - 1)) 1) as [M1 _].
    assert (R2 : Rpower 2 v = 2 * Rpower 2 (v - 1)). { replace v with (1 + (v - 1)) at 1 by ring. rewrite Rpower_plus, Rpower_1 by lra. reflexivity. } pose proof (POW u v UV). lra. }
  assert (OM : forall a b u, a = Some u \/ b = Some u -> exists v, omax a b = Some v /\ u <= v).
  { intros a b u H. destruct a as [a|], b as [b|]; cbn [omax]; destruct H as [H|H]; try discriminate; inversion H; subst; eexists; (split; [reflexivity|]); try apply ML; lra. }
  assert (BX : dx <= 2 * zMax p 1). { apply BD; [exact NX|]. intros u Hu. apply OM. left. exact Hu. }
  assert (BY : dy <= 2 * zMax p 1). { apply BD; [exact NY|]. intros u Hu. destruct (OM (ceil_log2 dy) (ceil_log2 dz) u (or_introl Hu)) as (v & Ev & Lv). destruct (OM (ceil_log2 dx) _ v (or_intror Ev)) as (w & Ew & Lw). exists w. split; [exact Ew|lra]. }
  assert (BZ : dz <= 2 * zMax p 1). { apply BD; [exact NZ|]. intros u Hu. destruct (OM (ceil_log2 dy) (ceil_log2 dz) u (or_intror Hu)) as (v & Ev & Lv). destruct (OM (ceil_log2 dx) _ v (or_intror Ev)) as (w & Ew & Lw). exists w. split; [exact Ew|lra]. }
  split; [reflexivity|split].
  - (* a power of two *)
    assert (IE : forall u, e = Some u -> exists k, u = IZR k).
    { assert (I0 : forall x u, ceil_log2 x = Some u -> exists k, u = IZR k) by (intros x u; unfold ceil_log2; destruct (Reqb x 0); [discriminate|]; intros H; inversion H; apply ceil_int).
      assert (I1 : forall a b, (forall u, a = Some u -> exists k, u = IZR k) -> (forall u, b = Some u -> exists k, u = IZR k) -> forall u, omax a b = Some u -> exists k, u = IZR k).
      { intros [a|] [b|] A B u; cbn [omax]; intros H; inversion H; subst; auto. destruct (MX a b) as [-> | ->]; auto. }
      unfold e. apply I1; [apply I0|]. apply I1; apply I0. }
    assert (PK : exists k : nat, zMax p 1 = 2 ^ k).
    { unfold zMax. destruct (Rltb_reflect 1 p) as [H1|H1]; [|exists 0%nat; reflexivity]. unfold p in *. destruct e as [u|]; [|lra]. destruct (IE u eq_refl) as (k & ->).
      assert (K1 : (1 <= k - 1)%Z). { apply le_IZR. destruct (Rlt_le_dec (IZR k - 1) 1) as [H|H]; [|rewrite minus_IZR; exact H]. exfalso. assert (Z0 : (k - 1 < 1)%Z) by (apply lt_IZR; rewrite minus_IZR; exact H). assert (Z1 : (k - 1 <= 0)%Z) by lia. apply IZR_le in Z1. rewrite minus_IZR in Z1. pose proof (POW _ _ Z1) as Q. rewrite Rpower_O in Q by lra. lra. }
      exists (Z.to_nat (k - 1)). rewrite <- Rpower_pow by lra. f_equal. rewrite INR_IZR_INZ, Z2Nat.id by lia. rewrite minus_IZR. reflexivity. }
    destruct PK as (k & Hk). exists k. unfold h. rewrite Hk. cbn [pow]. ring.
  - assert (H1 : forall d D, d = D / res -> d <= 2 * zMax p 1 -> D <= 2 * h). { intros d D E H. assert (D = d * res) by (rewrite E; field; lra). unfold h. nra. }
    pose proof (H1 dx _ eq_refl BX) as KX. pose proof (H1 dy _ eq_refl BY) as KY. pose proof (H1 dz _ eq_refl BZ) as KZ. unfold zAABox3DDepth in KX. unfold zAABox3DWidth in KY. unfold zAABox3DHeight in KZ.
    intros q (Q1 & Q2 & Q3). rewrite center_eq. cbn [vx vy vz]. unfold betw. repeat split; left; lra.
Qed.
Lemma octree_box_count t list : sub_null (o_root t) = false -> zVec3DOctreeToAABox3DList t list = (list ++ zVec3DOctantToAABox3DList (o_root t), match list with [] => length (zVec3DOctantToAABox3DList (o_root t)) | _ => 0%nat end) /\ zVec3DOctantToAABox3DList (o_root t) <> [].
Proof.
  intros N. split.
  - unfold zVec3DOctreeToAABox3DList. f_equal. rewrite app_length. destruct list as [|b l]; cbn [length Nat.add]; [rewrite Nat.eqb_refl; reflexivity|]. rewrite (proj2 (Nat.eqb_neq _ _)) by lia. reflexivity.
  - revert N. induction (o_root t) as [|r c pts sub IH]; intros N; [discriminate|]. cbn [zVec3DOctantToAABox3DList]. destruct (existsb _ octs) eqn:EX; [|discriminate]. apply existsb_exists in EX. destruct EX as (i & Hi & K). apply negb_true_iff in K. specialize (IH i K). intros Z. apply IH. destruct (zVec3DOctantToAABox3DList (sub i)) as [|b l] eqn:EB; [reflexivity|]. exfalso.
    assert (X : List.In b (flat_map (fun i => zVec3DOctantToAABox3DList (sub i)) octs)) by (apply in_flat_map; exists i; split; [exact Hi|rewrite EB; left; reflexivity]). rewrite Z in X. destruct X.
Qed.
(** a container of points *)
Lemma octree_data x1 y1 z1 x2 y2 z2 res d l : 0 <= res -> user_data d -> (exists d', zVecXDDataToAddrList d = Some (d', l)) ->
  (forall p, List.In p l -> betw x1 x2 (vx p) /\ betw y1 y2 (vy p) /\ betw z1 z2 (vz p)) ->
  exists n, forall fuel, (n <= fuel)%nat -> exists d' t, zVec3DOctreeAddData fuel (zVec3DOctreeInit x1 y1 z1 x2 y2 z2 res) d = Some (d', Some (t, true)) /\ right_answers t l.
Proof.
  intros Hr U E IN. destruct (data_of d l U E) as [W C].
  assert (SA : sane (map OInsert l)). { unfold sane. intros r Hin. apply in_map_iff in Hin. destruct Hin as (x & X & _). discriminate. }
  assert (EI : inserted (map OInsert l) = l) by (clear; induction l as [|a l IH]; [reflexivity|]; cbn [map inserted]; f_equal; exact IH).
  destruct (octree_history x1 y1 z1 x2 y2 z2 res (map OInsert l) Hr SA) as (n & H). { rewrite EI. exact IN. }
  exists n. intros fuel L. destruct (H fuel L) as (t & R & A & _). rewrite EI in A. unfold zVec3DOctreeAddData. 
  match goal with |- context [while_fetch _ _ _ ?b] => destruct (while_all b d (Some (zVec3DOctreeInit x1 y1 z1 x2 y2 z2 res, true)) W) as (d' & RW & _) end. rewrite RW, C. exists d', t. split; [|exact A]. do 2 f_equal.
  set (reg := box_of x1 y1 z1 x2 y2 z2) in *.
  assert (G : forall l t0 c pts sub, o_root t0 = Oct reg c pts sub -> (forall p, List.In p l -> zVec3DOctantPointIsInside reg p = true) -> run_oops fuel t0 (map OInsert l) = Some t ->
     fold_brk (fun (s : option (octree * bool)) v => match s with None => inr None | Some (t, _) => match zVec3DOctreeAddPoint fuel t v with None => inr None | Some (t', true) => inl (Some (t', true)) | Some (t', false) => inr (Some (t', false)) end end) (Some (t0, true)) l = Some (t, true)).
  { clear. induction l as [|a l IH]; intros t0 c pts sub ER IN R; cbn [map run_oops fold_brk] in *; [inversion R; reflexivity|]. cbn [run_oop] in R.
    destruct (zVec3DOctreeAddPoint fuel t0 a) as [[t1 b]|] eqn:EA; [|discriminate]. assert (EA' := EA). unfold zVec3DOctreeAddPoint in EA. rewrite ER in EA. rewrite (IN a (or_introl eq_refl)) in EA. cbn [negb] in EA.
    destruct (zVec3DOctantAddPoint fuel (Oct reg c pts sub) a (o_res t0)) as [o1|] eqn:EO; [|discriminate]. inversion EA; subst t1 b.
    assert (RO : exists pts' sub', o1 = Oct reg c pts' sub'). { destruct fuel as [|k]; [discriminate|]. cbn [zVec3DOctantAddPoint] in EO. destruct (zVec3DOctantIsSmallest reg (o_res t0)); [inversion EO; eauto|]. destruct (zVec3DOctantAddPoint k _ _ _); inversion EO; eauto. }
    destruct RO as (p' & s' & ->). eapply IH; [cbn [o_root]; reflexivity|intros p Hp; apply IN; right; exact Hp|exact R]. }
  eapply G; [reflexivity| |exact R]. intros p Hp. destruct (IN p Hp) as (X & Y & Z). apply (betw_box x1 y1 z1 x2 y2 z2); auto.
Qed.

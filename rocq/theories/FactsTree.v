(** Proofs about the kd-tree. *)
From Verif Require Import Base Spec SpecGeom SpecData ModelVec ModelBox ModelData ModelTree FactsVec FactsAlg FactsData FactsData2.
From Coq Require Import Lia Lra Permutation.
Open Scope R_scope.

Fixpoint nodes (t : tree) : list (nat * vec3) :=
  match t with Nil => [] | Node _ i _ p _ c0 c1 => (i, p) :: nodes c0 ++ nodes c1 end.
Definition above (o : option R) (v : R) : Prop := match o with None => True | Some m => m <= v end.
Definition below (o : option R) (v : R) : Prop := match o with None => True | Some m => v <= m end.
Definition in_xbox (b : xbox) (p : vec3) : Prop :=
  above (lox b) (vx p) /\ above (loy b) (vy p) /\ above (loz b) (vz p) /\ below (hix b) (vx p) /\ below (hiy b) (vy p) /\ below (hiz b) (vz p).
Fixpoint inv (reg : xbox) (t : tree) : Prop :=
  match t with
  | Nil => True
  | Node s i sp p r c0 c1 => r = reg /\ in_xbox reg p /\ s = length (nodes t) /\ inv (set_lo reg sp (elem sp p)) c0 /\ inv (set_hi reg sp (elem sp p)) c1
  end.
Lemma in_lo b a p q : in_xbox b p -> in_xbox (set_lo b a (elem a p)) q <-> (in_xbox b q /\ elem a p <= elem a q).
Proof.
  intros (H1 & H2 & H3 & H4 & H5 & H6). destruct b as [x y z u v w]. unfold in_xbox in *. destruct a; cbn [set_lo lox loy loz hix hiy hiz elem above] in *; split.
  1,3,5: intros (K1 & K2 & K3 & K4 & K5 & K6); repeat match goal with |- _ /\ _ => split end; auto; destruct x, y, z; cbn [above] in *; auto; lra.
  all: intros ((K1 & K2 & K3 & K4 & K5 & K6) & K7); repeat match goal with |- _ /\ _ => split end; auto.
Qed.
Lemma in_hi b a p q : in_xbox b p -> in_xbox (set_hi b a (elem a p)) q <-> (in_xbox b q /\ elem a q <= elem a p).
Proof.
  intros (H1 & H2 & H3 & H4 & H5 & H6). destruct b as [x y z u v w]. unfold in_xbox in *. destruct a; cbn [set_hi lox loy loz hix hiy hiz elem below] in *; split.
  1,3,5: intros (K1 & K2 & K3 & K4 & K5 & K6); repeat match goal with |- _ /\ _ => split end; auto; destruct u, v, w; cbn [below] in *; auto; lra.
  all: intros ((K1 & K2 & K3 & K4 & K5 & K6) & K7); repeat match goal with |- _ /\ _ => split end; auto.
Qed.
Lemma in_all p : in_xbox xbox_all p. Proof. unfold in_xbox, xbox_all; cbn; tauto. Qed.
Lemma inv_in t : forall reg i p, inv reg t -> List.In (i, p) (nodes t) -> in_xbox reg p.
Proof.
  induction t as [|s j sp q r c0 IH0 c1 IH1]; intros reg i p I H; [destruct H|]. destruct I as (E & B & _ & I0 & I1). cbn [nodes] in H. destruct H as [H|H].
  - apply pair_equal_spec in H. destruct H as [_ <-]. exact B.
  - apply in_app_or in H. destruct H as [H|H]; [specialize (IH0 _ _ _ I0 H); apply in_lo in IH0; tauto|specialize (IH1 _ _ _ I1 H); apply in_hi in IH1; tauto].
Qed.
Lemma excess_le v w mn mx d2 d : above mn w -> below mx w -> d2 <= d -> xsqr_excess v mn mx d2 <= d + (w - v) * (w - v).
Proof.
  intros A B H. assert (P := Rle_0_sqr (w - v)). unfold Rsqr in P. unfold xsqr_excess, zSqr. destruct mn as [m|], mx as [M|]; cbn [above below] in *; repeat match goal with |- context [Rltb ?a ?b] => destruct (Rltb_reflect a b) end; nra.
Qed.
Lemma sqrdist_le b q p : in_xbox b q -> xbox_sqrdist b p <= zVec3DSqrDist q p.
Proof.
  intros (H1 & H2 & H3 & H4 & H5 & H6). unfold xbox_sqrdist. replace (zVec3DSqrDist q p) with (0 + (vx q - vx p) * (vx q - vx p) + (vy q - vy p) * (vy q - vy p) + (vz q - vz p) * (vz q - vz p)).
  - repeat (apply excess_le; auto). lra.
  - rewrite sqd3. unfold Rsqr. unfold dist. rewrite norm_sqr. unfold dot, vsub. cbn [vx vy vz]. ring.
Qed.
(** ** insertion *)
Lemma branch_true sp p q : zVec3DTreeChooseBranch sp p q = true <-> elem sp p <= elem sp q.
Proof. unfold zVec3DTreeChooseBranch. destruct (Rleb_reflect (elem sp p) (elem sp q)); intuition; try discriminate; lra. Qed.
Lemma branch_false sp p q : zVec3DTreeChooseBranch sp p q = false <-> elem sp q < elem sp p.
Proof. unfold zVec3DTreeChooseBranch. destruct (Rleb_reflect (elem sp p) (elem sp q)); intuition; try discriminate; lra. Qed.
Lemma add_node t : forall reg q id, t <> Nil -> inv reg t -> in_xbox reg q ->
  inv reg (zVec3DTreeAddPoint_node t q id) /\ Permutation (nodes (zVec3DTreeAddPoint_node t q id)) ((id, q) :: nodes t) /\ zVec3DTreeAddPoint_node t q id <> Nil.
Proof.
  induction t as [|s j sp p r c0 IH0 c1 IH1]; intros reg q id N I B; [congruence|]. destruct I as (E & Bp & L & I0 & I1). cbn [zVec3DTreeAddPoint_node]. subst r.
  destruct (zVec3DTreeChooseBranch sp p q) eqn:CB.
  - apply branch_true in CB. assert (B0 : in_xbox (set_lo reg sp (elem sp p)) q) by (apply in_lo; auto).
    destruct c0 as [|s0 j0 sp0 p0 r0 c00 c01].
    + split; [|split; [|discriminate]].
      * cbn [inv zVec3DTreeCreateLeaf nodes app length] in *. repeat match goal with |- _ /\ _ => split end; auto.
      * cbn [nodes zVec3DTreeCreateLeaf app]. apply perm_swap.
    + set (c := Node s0 j0 sp0 p0 r0 c00 c01) in *. destruct (IH0 _ q id ltac:(discriminate) I0 B0) as (J & P & _). split; [|split; [|discriminate]].
      * cbn [inv nodes] in *. repeat match goal with |- _ /\ _ => split end; auto. cbn [length] in *. rewrite L. apply Permutation_length in P. rewrite !app_length, P. reflexivity.
      * cbn [nodes]. rewrite P. cbn [app]. apply perm_swap.
  - apply branch_false in CB. assert (B0 : in_xbox (set_hi reg sp (elem sp p)) q) by (apply in_hi; [exact Bp|split; [exact B|lra]]).
    destruct c1 as [|s0 j0 sp0 p0 r0 c00 c01].
    + split; [|split; [|discriminate]].
      * cbn [inv zVec3DTreeCreateLeaf nodes app length] in *. repeat match goal with |- _ /\ _ => split end; auto. rewrite app_length. cbn [length]. rewrite L, app_length. cbn [length]. lia.
      * cbn [nodes zVec3DTreeCreateLeaf]. rewrite !app_nil_r. rewrite <- Permutation_cons_append. apply perm_swap.
    + set (c := Node s0 j0 sp0 p0 r0 c00 c01) in *. destruct (IH1 _ q id ltac:(discriminate) I1 B0) as (J & P & _). split; [|split; [|discriminate]].
      * cbn [inv nodes] in *. repeat match goal with |- _ /\ _ => split end; auto. cbn [length] in *. rewrite L. apply Permutation_length in P. rewrite !app_length, P. cbn [length]. lia.
      * cbn [nodes]. rewrite P. rewrite <- Permutation_middle. apply perm_swap.
Qed.
Definition tree_ok (t : tree) : Prop := inv xbox_all t.
Lemma ok_size t : tree_ok t -> t_size t = length (nodes t).
Proof. destruct t; [reflexivity|]. intros (_ & _ & H & _). exact H. Qed.
Lemma add_ok t q : tree_ok t -> tree_ok (zVec3DTreeAddPoint t q) /\ Permutation (nodes (zVec3DTreeAddPoint t q)) ((t_size t, q) :: nodes t).
Proof.
  intros I. destruct t as [|s j sp p r c0 c1].
  - split; [|reflexivity]. unfold tree_ok. cbn. repeat split.
  - unfold zVec3DTreeAddPoint. set (t := Node s j sp p r c0 c1) in *. destruct (add_node t xbox_all q (t_size t) ltac:(discriminate) I (in_all q)) as (A & B & _). auto.
Qed.
Definition ids {A} (ps : list A) : list (nat * A) := combine (seq 0 (length ps)) ps.
Lemma ids_snoc {A} (ps : list A) p : ids (ps ++ [p]) = ids ps ++ [(length ps, p)].
Proof.
  unfold ids. rewrite app_length. cbn [length]. rewrite seq_app. cbn [seq]. 
  assert (G : forall (a b : list nat) (c d : list A), length a = length c -> combine (a ++ b) (c ++ d) = combine a c ++ combine b d).
  { induction a as [|x a IH]; intros b [|y c] d H; cbn in *; try discriminate; auto. rewrite IH by lia. reflexivity. }
  rewrite G by apply seq_length. reflexivity.
Qed.
Lemma build_ok ps : let t := fold_left zVec3DTreeAddPoint ps zVec3DTreeInit in tree_ok t /\ Permutation (nodes t) (ids ps) /\ t_size t = length ps.
Proof.
  cbv zeta. induction ps as [|p ps IH] using rev_ind; [repeat split; reflexivity|]. destruct IH as (I & P & S). rewrite fold_left_app. cbn [fold_left].
  destruct (add_ok _ p I) as (I2 & P2). assert (PP : Permutation (nodes (zVec3DTreeAddPoint (fold_left zVec3DTreeAddPoint ps zVec3DTreeInit) p)) (ids (ps ++ [p]))).
  { rewrite P2, ids_snoc, P, S. apply Permutation_cons_append. }
  split; [exact I2|split; [exact PP|]]. rewrite ok_size by exact I2. rewrite PP. unfold ids. rewrite combine_length, seq_length. apply Nat.min_id.
Qed.
Lemma in_ids {A} (ps : list A) i p : List.In (i, p) (ids ps) <-> nth_error ps i = Some p.
Proof.
  induction ps as [|q ps IH] using rev_ind; [cbn; split; [tauto|destruct i; discriminate]|]. rewrite ids_snoc, in_app_iff, IH. cbn [List.In]. split.
  - intros [H|[H|[]]]; [rewrite nth_error_app1; [exact H|apply nth_error_Some; congruence]|]. apply pair_equal_spec in H. destruct H as [<- <-]. rewrite nth_error_app2, Nat.sub_diag by lia. reflexivity.
  - intros H. destruct (Nat.ltb_spec i (length ps)); [left; rewrite nth_error_app1 in H; auto|]. right; left. assert (i = length ps). { assert (i < length (ps ++ [q]))%nat by (apply nth_error_Some; congruence). rewrite app_length in *; cbn in *; lia. } subst i. rewrite nth_error_app2, Nat.sub_diag in H by lia. cbn in H. congruence.
Qed.
(** ** nearest neighbour *)
Section nn.
Variable q : vec3.
Definition best (P : nat * vec3 -> Prop) (s : option tree * option R) : Prop :=
  match s with
  | (None, None) => forall x, ~ P x
  | (Some n, Some d) => exists i p, t_id n = Some i /\ t_point n = Some p /\ P (i, p) /\ d = dist p q /\ forall y, P y -> d <= dist (snd y) q
  | _ => False
  end.
Lemma best_ext P Q s : (forall x, P x <-> Q x) -> best P s -> best Q s.
Proof.
  intros E. destruct s as [[n|] [d|]]; cbn [best]; auto.
  - intros (i & p & A & B & C & D & F). exists i, p. repeat match goal with |- _ /\ _ => split end; auto; [apply E; exact C|intros y Hy; apply F, E, Hy].
  - intros H x Hx. apply (H x), E, Hx.
Qed.
Lemma sqr_dist_lt p d : 0 <= d -> Rltb (zVec3DSqrDist p q) (zSqr d) = Rltb (dist p q) d.
Proof. intros H. rewrite sqd3. unfold zSqr. apply rltb_sqr; auto using dist_nonneg. Qed.
Lemma best_nonneg P n d : best P (n, Some d) -> 0 <= d.
Proof. destruct n; [|intros []]. intros (i & p & _ & _ & _ & -> & _). apply dist_nonneg. Qed.
Lemma best_test P s n i p : t_id n = Some i -> t_point n = Some p -> best P s -> best (fun x => x = (i, p) \/ P x) (zVec3DTreeNNTest n p q s).
Proof.
  intros I T B. unfold zVec3DTreeNNTest. assert (SQ : sqrt (zVec3DSqrDist p q) = dist p q) by (rewrite sqd3; apply sqrt_Rsqr, dist_nonneg). destruct s as [n' [d|]]; cbn [snd].
  - rewrite sqr_dist_lt by (eapply best_nonneg; exact B). destruct (Rltb_reflect (dist p q) d) as [H|H].
    + destruct n' as [n'|]; [|destruct B]. destruct B as (i' & p' & _ & _ & _ & D & F). cbn [best]. exists i, p. rewrite SQ. repeat match goal with |- _ /\ _ => split end; auto. intros y [->|Hy]; cbn [snd]; [lra|]. specialize (F y Hy). lra.
    + destruct n' as [n'|]; [|destruct B]. destruct B as (i' & p' & A1 & A2 & A3 & D & F). cbn [best]. exists i', p'. repeat match goal with |- _ /\ _ => split end; auto. intros y [->|Hy]; cbn [snd]; [lra|auto].
  - destruct n' as [n'|]; [destruct B|]. cbn [best] in *. exists i, p. rewrite SQ. repeat match goal with |- _ /\ _ => split end; auto. intros y [->|Hy]; cbn [snd]; [lra|destruct (B y Hy)].
Qed.
Lemma best_prune P s reg t : best P s -> inv reg t -> zVec3DTreeIsOverlap reg q (snd s) = false -> best (fun x => P x \/ List.In x (nodes t)) s.
Proof.
  intros B I O. destruct s as [n [d|]]; cbn [snd zVec3DTreeIsOverlap] in O; [|discriminate]. pose proof (best_nonneg _ _ _ B) as D0.
  destruct n as [n|]; [|destruct B]. destruct B as (i & p & A1 & A2 & A3 & D & F). cbn [best]. exists i, p. repeat match goal with |- _ /\ _ => split end; auto.
  intros [j y] [Hy|Hy]; [auto|]. cbn [snd]. pose proof (sqrdist_le reg y q (inv_in _ _ _ _ I Hy)) as L. destruct (Rltb_reflect (xbox_sqrdist reg q) (zSqr d)) as [|K]; [discriminate|]. rewrite sqd3 in L. apply rsqr_le; auto using dist_nonneg. unfold zSqr in K. unfold Rsqr in *. lra.
Qed.
Lemma opp_best t : forall P s reg, best P s -> inv reg t -> best (fun x => P x \/ List.In x (nodes t)) (zVec3DTreeNNOpp t q s).
Proof.
  induction t as [|sz j sp p r c0 IH0 c1 IH1]; intros P s reg B I.
  - cbn. eapply best_ext; [|exact B]. intros; cbn; tauto.
  - destruct I as (E & _ & _ & I0 & I1). cbn [zVec3DTreeNNOpp].
    pose proof (best_test P s (Node sz j sp p r c0 c1) j p eq_refl eq_refl B) as B1.
    set (s1 := zVec3DTreeNNTest (Node sz j sp p r c0 c1) p q s) in *. clearbody s1. cbv zeta.
    set (s2 := match c0 with Nil => s1 | _ => if zVec3DTreeIsOverlap (t_region c0) q (snd s1) then zVec3DTreeNNOpp c0 q s1 else s1 end).
    assert (B2 : best (fun x => (x = (j, p) \/ P x) \/ List.In x (nodes c0)) s2).
    { unfold s2. destruct c0 as [|a0 a1 a2 a3 a4 a5 a6] eqn:EC; [eapply best_ext; [|exact B1]; intros; cbn; tauto|]. rewrite <- EC in *. destruct (zVec3DTreeIsOverlap (t_region c0) q (snd s1)) eqn:O; [eapply IH0; eauto|].
      eapply best_prune; eauto. rewrite EC in I0, O. cbn [inv] in I0. destruct I0 as [I0 _]. cbn [t_region] in O. rewrite <- I0. exact O. }
    clearbody s2.
    assert (B3 : best (fun x => ((x = (j, p) \/ P x) \/ List.In x (nodes c0)) \/ List.In x (nodes c1)) (match c1 with Nil => s2 | _ => if zVec3DTreeIsOverlap (t_region c1) q (snd s2) then zVec3DTreeNNOpp c1 q s2 else s2 end)).
    { destruct c1 as [|a0 a1 a2 a3 a4 a5 a6] eqn:EC; [eapply best_ext; [|exact B2]; intros; cbn; tauto|]. rewrite <- EC in *. destruct (zVec3DTreeIsOverlap (t_region c1) q (snd s2)) eqn:O; [eapply IH1; eauto|].
      eapply best_prune; eauto. rewrite EC in I1, O. cbn [inv] in I1. destruct I1 as [I1 _]. cbn [t_region] in O. rewrite <- I1. exact O. }
    eapply best_ext; [|exact B3]. intros x. cbn [nodes List.In]. rewrite in_app_iff. intuition.
Qed.
Lemma opp_if_best t P s reg : best P s -> inv reg t -> best (fun x => P x \/ List.In x (nodes t)) (match t with Nil => s | _ => if zVec3DTreeIsOverlap (t_region t) q (snd s) then zVec3DTreeNNOpp t q s else s end).
Proof.
  intros B I. destruct t as [|a0 a1 a2 a3 a4 a5 a6] eqn:EC; [eapply best_ext; [|exact B]; intros; cbn; tauto|]. rewrite <- EC in *. destruct (zVec3DTreeIsOverlap (t_region t) q (snd s)) eqn:O; [eapply opp_best; eauto|].
  eapply best_prune; eauto. rewrite EC in I, O. cbn [inv] in I. destruct I as [I _]. cbn [t_region] in O. rewrite <- I. exact O.
Qed.
Lemma nn_best t : forall P s reg, best P s -> inv reg t -> best (fun x => P x \/ List.In x (nodes t)) (zVec3DTreeNN_node t q s).
Proof.
  induction t as [|sz j sp p r c0 IH0 c1 IH1]; intros P s reg B I.
  - cbn. eapply best_ext; [|exact B]. intros; cbn; tauto.
  - destruct I as (E & _ & _ & I0 & I1). cbn [zVec3DTreeNN_node]. cbv zeta. destruct (zVec3DTreeChooseBranch sp p q).
    + pose proof (IH0 P s _ B I0) as B1. pose proof (best_test _ _ (Node sz j sp p r c0 c1) j p eq_refl eq_refl B1) as B2.
      pose proof (opp_if_best c1 _ _ _ B2 I1) as B3. eapply best_ext; [|exact B3]. intros x. cbn [nodes List.In]. rewrite in_app_iff. intuition.
    + pose proof (IH1 P s _ B I1) as B1. pose proof (best_test _ _ (Node sz j sp p r c0 c1) j p eq_refl eq_refl B1) as B2.
      pose proof (opp_if_best c0 _ _ _ B2 I0) as B3. eapply best_ext; [|exact B3]. intros x. cbn [nodes List.In]. rewrite in_app_iff. intuition.
Qed.
End nn.
Lemma tree_nn ps q : ps <> [] -> exists n i p,
  zVec3DTreeNN (fold_left zVec3DTreeAddPoint ps zVec3DTreeInit) q = Some (Some n, Some (dist p q)) /\
  t_id n = Some i /\ t_point n = Some p /\ nth_error ps i = Some p /\ forall y, List.In y ps -> dist p q <= dist y q.
Proof.
  intros NE. destruct (build_ok ps) as (I & P & SZ). set (t := fold_left zVec3DTreeAddPoint ps zVec3DTreeInit) in *.
  assert (N : t <> Nil). { intros E. rewrite E in SZ. cbn in SZ. destruct ps; [congruence|discriminate]. }
  assert (B0 : best q (fun _ => False) (None, None)) by (cbn; tauto).
  pose proof (nn_best q t _ _ _ B0 I) as B. unfold zVec3DTreeNN. destruct t as [|a0 a1 a2 a3 a4 a5 a6] eqn:ET; [congruence|]. rewrite <- ET in *. clear B0.
  destruct (zVec3DTreeNN_node t q (None, None)) as [[n|] [d|]]; cbn [best] in B; try tauto.
  - destruct B as (i & p & A1 & A2 & [[]|A3] & D & F). exists n, i, p. subst d. repeat match goal with |- _ /\ _ => split end; auto.
    + apply in_ids. rewrite <- P. exact A3.
    + intros y Hy. apply In_nth_error in Hy. destruct Hy as (k & Hk). apply (F (k, y)). right. rewrite P. apply in_ids. exact Hk.
  - exfalso. destruct ps as [|v ps']; [congruence|]. apply (B (0%nat, v)). right. rewrite P. apply in_ids. reflexivity.
Qed.
(** ** vicinity *)
Lemma vic_test p q r2 v l : wf v -> d_method v = MAddrList -> contents v = l -> exists v', zVec3DTreeVicinityTest p q r2 v = Some v' /\ wf v' /\ d_method v' = MAddrList /\
  contents v' = l ++ filter (fun x => Rltb (zVec3DSqrDist x q) r2) [p].
Proof.
  intros W M C. unfold zVec3DTreeVicinityTest. cbn [filter]. destruct (Rltb (zVec3DSqrDist p q) r2).
  - unfold zVecXDDataAdd. rewrite M. eexists. split; [reflexivity|]. unfold contents, wf in *. rewrite M in *. cbn [d_method listlike d_c d_store] in *. subst l. repeat split; auto. destruct (d_c v); auto. rewrite app_length. lia.
  - exists v. rewrite app_nil_r. auto.
Qed.
Definition near (q : vec3) (r2 : R) (t : tree) : list vec3 := filter (fun x => Rltb (zVec3DSqrDist x q) r2) (map snd (nodes t)).
Lemma near_prune reg q r2 t : inv reg t -> Rltb (xbox_sqrdist reg q) r2 = false -> near q r2 t = [].
Proof.
  intros I O. unfold near. destruct (Rltb_reflect (xbox_sqrdist reg q) r2) as [|K]; [discriminate|].
  assert (H : forall x, List.In x (map snd (nodes t)) -> Rltb (zVec3DSqrDist x q) r2 = false).
  { intros x Hx. apply in_map_iff in Hx. destruct Hx as ([i y] & <- & Hy). cbn [snd]. apply Rltb_false. pose proof (sqrdist_le reg y q (inv_in _ _ _ _ I Hy)). lra. }
  induction (map snd (nodes t)) as [|x l IH]; [reflexivity|]. cbn [filter]. rewrite H by (left; reflexivity). apply IH. intros y Hy. apply H. right. exact Hy.
Qed.
Definition vic_to (q : vec3) (r2 : R) (f : data vec3 -> option (data vec3)) (L : list vec3) : Prop :=
  forall v, wf v -> d_method v = MAddrList -> exists v' l, f v = Some v' /\ wf v' /\ d_method v' = MAddrList /\ contents v' = contents v ++ l /\ Permutation l L.
Lemma vic_opp_if q r2 t reg : inv reg t -> vic_to q r2 (zVec3DTreeVicinityOpp t q r2) (near q r2 t) ->
  vic_to q r2 (fun v => match t with Nil => Some v | _ => if Rltb (xbox_sqrdist (t_region t) q) r2 then zVec3DTreeVicinityOpp t q r2 v else Some v end) (near q r2 t).
Proof.
  intros I H v W M. destruct t as [|a0 a1 a2 a3 a4 a5 a6] eqn:ET; [exists v, []; rewrite app_nil_r; auto 6|]. rewrite <- ET in *. destruct (Rltb (xbox_sqrdist (t_region t) q) r2) eqn:O; [apply H; auto|].
  exists v, []. rewrite app_nil_r. rewrite (near_prune reg); auto. rewrite ET in I, O. destruct I as [I _]. rewrite <- I. exact O.
Qed.
Lemma near_node q r2 sz j sp p r c0 c1 : near q r2 (Node sz j sp p r c0 c1) = filter (fun x => Rltb (zVec3DSqrDist x q) r2) [p] ++ near q r2 c0 ++ near q r2 c1.
Proof. unfold near. cbn [nodes map snd]. rewrite map_app. rewrite <- !filter_app. reflexivity. Qed.
Lemma vic_opp q r2 t : forall reg, inv reg t -> vic_to q r2 (zVec3DTreeVicinityOpp t q r2) (near q r2 t).
Proof.
  induction t as [|sz j sp p r c0 IH0 c1 IH1]; intros reg I v W M; [exists v, []; rewrite app_nil_r; auto 6|].
  destruct I as (E & _ & _ & I0 & I1). cbn [zVec3DTreeVicinityOpp].
  destruct (vic_test p q r2 v (contents v) W M eq_refl) as (v1 & E1 & W1 & M1 & C1). rewrite E1. cbn [bind].
  destruct (vic_opp_if q r2 c0 _ I0 (IH0 _ I0) v1 W1 M1) as (v2 & l2 & E2 & W2 & M2 & C2 & P2). cbv beta in E2. rewrite E2. cbn [bind].
  destruct (vic_opp_if q r2 c1 _ I1 (IH1 _ I1) v2 W2 M2) as (v3 & l3 & E3 & W3 & M3 & C3 & P3). cbv beta in E3. rewrite E3.
  exists v3. eexists. split; [reflexivity|]. split; [exact W3|]. split; [exact M3|]. split; [rewrite C3, C2, C1, <- !app_assoc; reflexivity|]. rewrite near_node, P2, P3. reflexivity.
Qed.
Lemma vic_node q r2 t : forall reg, inv reg t -> vic_to q r2 (zVec3DTreeVicinity_node t q r2) (near q r2 t).
Proof.
  induction t as [|sz j sp p r c0 IH0 c1 IH1]; intros reg I v W M; [exists v, []; rewrite app_nil_r; auto 6|].
  destruct I as (E & _ & _ & I0 & I1). cbn [zVec3DTreeVicinity_node]. cbv zeta. destruct (zVec3DTreeChooseBranch sp p q).
  - destruct (IH0 _ I0 v W M) as (v1 & l1 & E1 & W1 & M1 & C1 & P1). rewrite E1. cbn [bind].
    destruct (vic_test p q r2 v1 (contents v1) W1 M1 eq_refl) as (v2 & E2 & W2 & M2 & C2). rewrite E2. cbn [bind].
    destruct (vic_opp_if q r2 c1 _ I1 (vic_opp q r2 c1 _ I1) v2 W2 M2) as (v3 & l3 & E3 & W3 & M3 & C3 & P3). cbv beta in E3. rewrite E3.
    exists v3. eexists. split; [reflexivity|]. split; [exact W3|]. split; [exact M3|]. split; [rewrite C3, C2, C1, <- !app_assoc; reflexivity|]. rewrite near_node, P1, P3. rewrite !app_assoc. apply Permutation_app_tail, Permutation_app_comm.
  - destruct (IH1 _ I1 v W M) as (v1 & l1 & E1 & W1 & M1 & C1 & P1). rewrite E1. cbn [bind].
    destruct (vic_test p q r2 v1 (contents v1) W1 M1 eq_refl) as (v2 & E2 & W2 & M2 & C2). rewrite E2. cbn [bind].
    destruct (vic_opp_if q r2 c0 _ I0 (vic_opp q r2 c0 _ I0) v2 W2 M2) as (v3 & l3 & E3 & W3 & M3 & C3 & P3). cbv beta in E3. rewrite E3.
    exists v3. eexists. split; [reflexivity|]. split; [exact W3|]. split; [exact M3|]. split; [rewrite C3, C2, C1, <- !app_assoc; reflexivity|]. rewrite near_node, P1, P3.
    rewrite Permutation_app_comm. rewrite <- app_assoc. reflexivity.
Qed.
Lemma filter_perm {A} (f : A -> bool) l l' : Permutation l l' -> Permutation (filter f l) (filter f l').
Proof. induction 1; cbn [filter]; try (destruct (f x)); try (destruct (f y)); auto using perm_swap. all: try (etransitivity; eauto). Qed.
Lemma snd_ids {A} (ps : list A) : map snd (ids ps) = ps.
Proof. induction ps as [|p ps IH] using rev_ind; [reflexivity|]. rewrite ids_snoc, map_app, IH. reflexivity. Qed.
Lemma tree_vicinity ps q r : ps <> [] -> 0 <= r -> exists v d' l,
  zVec3DTreeVicinity (fold_left zVec3DTreeAddPoint ps zVec3DTreeInit) q r = Some v /\ zVecXDDataToAddrList v = Some (d', l) /\
  Permutation l (filter (fun p => Rltb (dist p q) r) ps).
Proof.
  intros NE Hr. destruct (build_ok ps) as (I & P & SZ). set (t := fold_left zVec3DTreeAddPoint ps zVec3DTreeInit) in *.
  assert (N : t <> Nil). { intros E. rewrite E in SZ. cbn in SZ. destruct ps; [congruence|discriminate]. }
  destruct (vic_node q (r * r) t _ I zVecXDDataInitAddrList Logic.I eq_refl) as (v & l & E & W & M & C & PL). cbn in C.
  destruct (to_addr_list v W) as (d' & T & _). exists v, d', l. unfold zVec3DTreeVicinity. destruct t as [|a0 a1 a2 a3 a4 a5 a6] eqn:ET; [congruence|]. rewrite <- ET in *.
  split; [exact E|]. split; [rewrite T, C; reflexivity|]. rewrite PL. unfold near.
  rewrite (filter_ext _ (fun p => Rltb (dist p q) r)); [|intros p; rewrite sqd3; apply rltb_sqr; auto using dist_nonneg]. apply filter_perm. rewrite P, snd_ids. reflexivity.
Qed.
Lemma nodup_app {A} (a b : list A) : NoDup (a ++ b) -> NoDup a /\ NoDup b /\ forall x, List.In x a -> ~ List.In x b.
Proof.
  induction a as [|x a IH]; cbn [app]; intros H; [repeat split; auto; constructor|]. apply NoDup_cons_iff in H. destruct H as [H1 H2]. destruct (IH H2) as (I1 & I2 & I3). rewrite in_app_iff in H1.
  repeat split; [constructor; tauto|exact I2|]. intros y [<-|Hy]; [tauto|apply I3; exact Hy].
Qed.
Lemma list_ext {A} : forall a b : list A, (forall i, nth_error a i = nth_error b i) -> a = b.
Proof.
  induction a as [|x a IH]; intros [|y b] H; auto; try (specialize (H 0%nat); discriminate). f_equal; [specialize (H 0%nat); cbn in H; congruence|]. apply IH. intros i. exact (H (S i)).
Qed.
(** ** export *)
Lemma set_elem_spec : forall arr i v, (i < length arr)%nat -> exists arr', set_elem arr i v = Some arr' /\ length arr' = length arr /\ nth_error arr' i = Some v /\ forall j, j <> i -> nth_error arr' j = nth_error arr j.
Proof.
  induction arr as [|x arr IH]; intros i v H; [cbn in H; lia|]. destruct i as [|i].
  - exists (v :: arr). cbn. repeat split; auto. intros [|j] Hj; [congruence|reflexivity].
  - cbn in H. destruct (IH i v ltac:(lia)) as (arr' & E & L & G & F). exists (x :: arr'). cbn [set_elem]. rewrite E. cbn. repeat split; auto. intros [|j] Hj; [reflexivity|]. apply F. lia.
Qed.
Lemma to_array_node t : forall arr, Forall (fun x => (fst x < length arr)%nat) (nodes t) -> NoDup (map fst (nodes t)) ->
  exists arr', zVec3DTreeToArray_node t arr = (arr', true) /\ length arr' = length arr /\
  (forall i p, List.In (i, p) (nodes t) -> nth_error arr' i = Some p) /\ (forall i, ~ List.In i (map fst (nodes t)) -> nth_error arr' i = nth_error arr i).
Proof.
  induction t as [|sz j sp p r c0 IH0 c1 IH1]; intros arr F D; [exists arr; cbn; repeat split; auto; tauto|].
  cbn [nodes] in F, D. cbn [map fst] in D. apply NoDup_cons_iff in D. destruct D as [Dj D]. inversion F as [|? ? Fj FF]; subst. cbn [fst] in Fj. apply Forall_app in FF. destruct FF as [F0 F1].
  cbn [zVec3DTreeToArray_node]. destruct (set_elem_spec arr j p Fj) as (a1 & E1 & L1 & G1 & K1). rewrite E1. rewrite map_app in D, Dj.
  apply nodup_app in D. destruct D as (D0 & D1 & DJ).
  destruct (IH0 a1 ltac:(rewrite L1; exact F0) D0) as (a2 & E2 & L2 & G2 & K2). rewrite E2.
  destruct (IH1 a2 ltac:(rewrite L2, L1; exact F1) D1) as (a3 & E3 & L3 & G3 & K3). rewrite E3.
  exists a3. split; [reflexivity|]. split; [congruence|]. rewrite in_app_iff in Dj. 
  split.
  - intros i y H. cbn [nodes List.In] in H. rewrite in_app_iff in H. destruct H as [H|[H|H]].
    + apply pair_equal_spec in H. destruct H as [<- <-]. rewrite K3, K2 by tauto. exact G1.
    + rewrite K3; [apply G2; exact H|]. apply DJ. apply in_map_iff. exists (i, y). auto.
    + apply G3. exact H.
  - intros i H. cbn [nodes map fst List.In] in H. rewrite map_app, in_app_iff in H. rewrite K3, K2 by tauto. apply K1. intros ->. tauto.
Qed.
Lemma tree_export ps : ps <> [] -> let t := fold_left zVec3DTreeAddPoint ps zVec3DTreeInit in
  t_size t = length ps /\ zVec3DTreeToArray t = Some ps /\ (exists l, zVec3DTreeToList t = Some l /\ Permutation l ps).
Proof.
  intros NE. cbv zeta. destruct (build_ok ps) as (I & P & SZ). set (t := fold_left zVec3DTreeAddPoint ps zVec3DTreeInit) in *.
  assert (N : t <> Nil). { intros E. rewrite E in SZ. cbn in SZ. destruct ps; [congruence|discriminate]. }
  split; [exact SZ|split].
  - unfold zVec3DTreeToArray. destruct t as [|a0 a1 a2 a3 a4 a5 a6] eqn:ET; [congruence|]. rewrite <- ET in *.
    destruct (to_array_node t (repeat (V3 0 0 0) (t_size t))) as (arr & E & L & G & _).
    + apply Forall_forall. intros [i p] Hx. rewrite repeat_length. rewrite P in Hx. apply in_ids in Hx. cbn [fst]. rewrite SZ. apply nth_error_Some. congruence.
    + eapply Permutation_NoDup; [apply Permutation_map, Permutation_sym, P|]. unfold ids. clear. 
      assert (H : forall (l : list vec3) k, map fst (combine (seq k (length l)) l) = seq k (length l)) by (induction l as [|x l IH]; intros k; cbn; [reflexivity|rewrite IH; reflexivity]). rewrite H. apply seq_NoDup.
    + rewrite E. f_equal. rewrite repeat_length, SZ in L. apply list_ext. intros i. destruct (Nat.ltb_spec i (length ps)) as [H|H].
      * destruct (nth_error ps i) as [p|] eqn:EP; [|apply nth_error_None in EP; lia]. apply G. rewrite P. apply in_ids. exact EP.
      * rewrite (proj2 (nth_error_None arr i)), (proj2 (nth_error_None ps i)); auto; lia.
  - assert (H : forall t l, zVec3DTreeNodeToList t l = l ++ map snd (nodes t)).
    { clear. induction t as [|sz j sp p r c0 IH0 c1 IH1]; intros l; cbn [zVec3DTreeNodeToList nodes map snd]; [rewrite app_nil_r; reflexivity|]. rewrite IH1, IH0, map_app, <- !app_assoc. reflexivity. }
    unfold zVec3DTreeToList. destruct t as [|a0 a1 a2 a3 a4 a5 a6] eqn:ET; [congruence|]. rewrite <- ET in *. eexists. split; [reflexivity|]. rewrite H, P, snd_ids. reflexivity.
Qed.
(** ** exchange with containers *)
Lemma add_data (d : data vec3) ps l : user_data d -> (exists d', zVecXDDataToAddrList d = Some (d', l)) ->
  exists d', zVec3DTreeAddData (fold_left zVec3DTreeAddPoint ps zVec3DTreeInit) d = Some (d', fold_left zVec3DTreeAddPoint (ps ++ l) zVec3DTreeInit).
Proof.
  intros U E. destruct (data_of d l U E) as [W C]. unfold zVec3DTreeAddData. destruct (while_all (fun t v => inl (zVec3DTreeAddPoint t v)) d (fold_left zVec3DTreeAddPoint ps zVec3DTreeInit) W) as (d' & R & _). exists d'. rewrite R, fold_brk_fold, C, fold_left_app. reflexivity.
Qed.
Lemma to_data_node t : forall d, wf d -> d_method d = MList \/ d_method d = MAddrList -> exists d', zVec3DTreeToData_node t d = (d', true) /\ wf d' /\ d_method d' = d_method d /\ contents d' = contents d ++ map snd (nodes t).
Proof.
  induction t as [|sz j sp p r c0 IH0 c1 IH1]; intros d W M; cbn [zVec3DTreeToData_node nodes map snd]; [exists d; rewrite app_nil_r; auto|].
  assert (H : exists d1, zVecXDDataAdd d p = (d1, true) /\ wf d1 /\ d_method d1 = d_method d /\ contents d1 = contents d ++ [p]).
  { unfold zVecXDDataAdd, wf, contents in *. destruct M as [M|M]; rewrite M in *; cbn [listlike] in *; eexists; (split; [reflexivity|]); cbn [d_method d_store d_c listlike]; (split; [destruct (d_c d); auto; rewrite app_length; lia|auto]). }
  destruct H as (d1 & E1 & W1 & M1 & C1). rewrite E1.
  destruct (IH0 d1 W1 ltac:(rewrite M1; exact M)) as (d2 & E2 & W2 & M2 & C2). rewrite E2.
  destruct (IH1 d2 W2 ltac:(rewrite M2, M1; exact M)) as (d3 & E3 & W3 & M3 & C3). rewrite E3.
  exists d3. split; [reflexivity|]. split; [exact W3|]. split; [congruence|]. rewrite C3, C2, C1, map_app, <- !app_assoc. reflexivity.
Qed.
Lemma to_data ps d0 h : ps <> [] -> d0 = zVecXDDataInitList \/ d0 = zVecXDDataInitAddrList -> exists d' d'' l,
  zVec3DTreeToData (fold_left zVec3DTreeAddPoint ps zVec3DTreeInit) (fst (run_ops d0 h)) = Some (d', true) /\ zVecXDDataToAddrList d' = Some (d'', added h ++ l) /\ Permutation l ps.
Proof.
  intros NE E. assert (W : wf d0) by (destruct E as [-> | ->]; exact I). assert (M : d_method d0 = MList \/ d_method d0 = MAddrList) by (destruct E as [-> | ->]; auto).
  destruct (list_history h d0 W M) as (_ & H2 & H3). assert (C : contents d0 = []) by (destruct E as [-> | ->]; auto). rewrite C in *. cbn [app] in H2.
  assert (M' : d_method (fst (run_ops d0 h)) = MList \/ d_method (fst (run_ops d0 h)) = MAddrList).
  { clear -M. revert d0 M. induction h as [|o h IH]; intros d0 M; [exact M|]. cbn [run_ops].
    assert (Q : d_method (fst (run_op d0 o)) = MList \/ d_method (fst (run_op d0 o)) = MAddrList).
    { destruct o; cbn [run_op fst]; auto.
      - unfold zVecXDDataAdd. destruct M as [M|M]; rewrite M; cbn; auto.
      - unfold zVecXDDataRewind. destruct M as [M|M]; rewrite M; cbn; auto.
      - unfold zVecXDDataFetch. destruct (zVecXDDataPeek d0); cbn [fst]; auto. destruct M as [M|M]; rewrite M; cbn; auto. }
    destruct (run_op d0 o) as [d1 b]. specialize (IH d1 Q). destruct (run_ops d1 h). exact IH. }
  destruct (build_ok ps) as (I & P & SZ). set (t := fold_left zVec3DTreeAddPoint ps zVec3DTreeInit) in *.
  assert (N : t <> Nil). { intros E0. rewrite E0 in SZ. cbn in SZ. destruct ps; [congruence|discriminate]. }
  destruct (to_data_node t _ H3 M') as (d' & R & W' & _ & C'). destruct (to_addr_list d' W') as (d'' & T & _). exists d', d'', (map snd (nodes t)).
  split; [|split].
  - unfold zVec3DTreeToData. destruct t; [congruence|]. rewrite R. reflexivity.
  - rewrite T, C', H2. reflexivity.
  - rewrite P, snd_ids. reflexivity.
Qed.
(** the node under which a point would be inserted *)
Lemma tree_part ps q : ps <> [] -> exists n i p, zVec3DTreePart (fold_left zVec3DTreeAddPoint ps zVec3DTreeInit) q = Some n /\ t_id n = Some i /\ t_point n = Some p /\ nth_error ps i = Some p /\ in_xbox (t_region n) q.
Proof.
  intros NE. destruct (build_ok ps) as (I & P & SZ). set (t := fold_left zVec3DTreeAddPoint ps zVec3DTreeInit) in *.
  assert (N : t <> Nil). { intros E0. rewrite E0 in SZ. cbn in SZ. destruct ps; [congruence|discriminate]. }
  assert (G : forall t reg, t <> Nil -> inv reg t -> in_xbox reg q -> exists n i p, zVec3DTreePart t q = Some n /\ t_id n = Some i /\ t_point n = Some p /\ List.In (i, p) (nodes t) /\ in_xbox (t_region n) q).
  { clear. induction t as [|sz j sp p r c0 IH0 c1 IH1]; intros reg N I B; [congruence|]. pose proof I as I'. destruct I as (E & Bp & _ & I0 & I1). cbn [zVec3DTreePart].
    destruct (zVec3DTreeChooseBranch sp p q) eqn:CB.
    - apply branch_true in CB. destruct c0 as [|a0 a1 a2 a3 a4 a5 a6] eqn:EC; [exists (Node sz j sp p r Nil c1), j, p; cbn; subst r; auto 6|]. rewrite <- EC in *.
      destruct (IH0 _ ltac:(congruence) I0 ltac:(apply in_lo; auto)) as (n & i & y & Q1 & Q2 & Q3 & Q4 & Q5). exists n, i, y. cbn [nodes List.In]. rewrite in_app_iff. auto 8.
    - apply branch_false in CB. destruct c1 as [|a0 a1 a2 a3 a4 a5 a6] eqn:EC; [exists (Node sz j sp p r c0 Nil), j, p; cbn; subst r; auto 6|]. rewrite <- EC in *.
      destruct (IH1 _ ltac:(congruence) I1 ltac:(apply in_hi; [auto|split; [auto|lra]])) as (n & i & y & Q1 & Q2 & Q3 & Q4 & Q5). exists n, i, y. cbn [nodes List.In]. rewrite in_app_iff. auto 8. }
  destruct (G t _ N I (in_all q)) as (n & i & p & Q1 & Q2 & Q3 & Q4 & Q5). exists n, i, p. repeat match goal with |- _ /\ _ => split end; auto. apply in_ids. rewrite <- P. exact Q4.
Qed.
(** nothing may be searched in, nor exported from, an empty tree *)
Lemma empty_tree q r d : zVec3DTreeNN zVec3DTreeInit q = None /\ zVec3DTreeVicinity zVec3DTreeInit q r = None /\ zVec3DTreePart zVec3DTreeInit q = None /\
  zVec3DTreeToList zVec3DTreeInit = None /\ zVec3DTreeToArray zVec3DTreeInit = None /\ zVec3DTreeToData zVec3DTreeInit d = None.
Proof. repeat split. Qed.
Lemma tree_part_bounds ps q : ps <> [] -> exists n i p, zVec3DTreePart (fold_left zVec3DTreeAddPoint ps zVec3DTreeInit) q = Some n /\ t_id n = Some i /\ t_point n = Some p /\ nth_error ps i = Some p /\
  forall v, (lox (t_region n) = Some v -> v <= vx q) /\ (loy (t_region n) = Some v -> v <= vy q) /\ (loz (t_region n) = Some v -> v <= vz q) /\
            (hix (t_region n) = Some v -> vx q <= v) /\ (hiy (t_region n) = Some v -> vy q <= v) /\ (hiz (t_region n) = Some v -> vz q <= v).
Proof.
  intros NE. destruct (tree_part ps q NE) as (n & i & p & A & B & C & D & (H1 & H2 & H3 & H4 & H5 & H6)). exists n, i, p. repeat match goal with |- _ /\ _ => split end; auto.
  intros v. repeat match goal with |- _ /\ _ => split end; intros E; rewrite E in *; assumption.
Qed.

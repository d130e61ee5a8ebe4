(** Facts about sets of shapes, continued: vertices, bounding balls, octrees, and a wrong answer. *)
From Verif Require Import Base Spec SpecShape SpecMulti SpecBall SpecOctree ModelMulti FactsVec FactsAlg FactsElem FactsRound FactsBox FactsObb FactsPH4 FactsMulti FactsBallQ3 FactsOctree FactsOctree2 FactsOctree3.
From Coq Require Import List Lia Lra Permutation.
Import ListNotations.
Open Scope R_scope.

(** ** contiguous vertices *)
Definition contig_step p := fun (acc : option (option vec3 * R * R)) s =>
  match acc, zShape3DContigVert s p with
  | Some (v, dist_min, distance), Vert nv d => if Rltb d dist_min then Some (Some nv, d, d) else Some (v, dist_min, d)
  | Some (v, dist_min, distance), NoVert => if Rltb distance dist_min then Some (None, distance, distance) else Some (v, dist_min, distance)
  | _, _ => None
  end.
Lemma contig_fold p phs : forall v d x, d = dist p v -> d <= x -> exists v' d' x', fold_left (contig_step p) (map ShPH phs) (Some (Some v, d, x)) = Some (Some v', d', x') /\
  d' = dist p v' /\ d' <= d /\ (v' = v \/ List.In v' (flat_map pverts phs)) /\ forall w, List.In w (flat_map pverts phs) -> d' <= dist p w.
Proof.
  induction phs as [|ph phs IH]; intros v d x E L; cbn [map fold_left flat_map].
  - exists v, d, x. repeat split; auto; [lra|intros w []].
  - unfold contig_step at 2. cbn [zShape3DContigVert]. pose proof (ph_contig ph p) as C. destruct (zPH3DContigVert ph p) as [[nv nd]|].
    + destruct C as (I & D & M). destruct (Rltb_reflect nd d) as [Q|Q].
      * destruct (IH nv nd nd D ltac:(lra)) as (v' & d' & x' & -> & A & B & C & F). exists v', d', x'. split; [reflexivity|]. split; [exact A|]. split; [lra|]. split.
        -- right. apply in_app_iff. destruct C as [->|C]; [left; exact I|right; exact C].
        -- intros w W. apply in_app_iff in W as [W|W]; [specialize (M w W); lra|apply F, W].
      * destruct (IH v d nd E ltac:(lra)) as (v' & d' & x' & -> & A & B & C & F). exists v', d', x'. split; [reflexivity|]. split; [exact A|]. split; [lra|]. split.
        -- destruct C as [C|C]; [left; exact C|right; apply in_app_iff; right; exact C].
        -- intros w W. apply in_app_iff in W as [W|W]; [specialize (M w W); lra|apply F, W].
    + rewrite C. cbn [app]. destruct (Rltb_reflect x d) as [Q|Q]; [lra|]. destruct (IH v d x E L) as (v' & d' & x' & -> & A & B & G & F). exists v', d', x'. auto.
Qed.
Lemma multi_contig ph phs p : pverts ph <> [] -> exists v d, zMultiShape3DContigVert (map ShPH (ph :: phs)) p = Some (v, d) /\
  List.In v (flat_map pverts (ph :: phs)) /\ d = dist p v /\ forall w, List.In w (flat_map pverts (ph :: phs)) -> d <= dist p w.
Proof.
  intros NE. cbn [map zMultiShape3DContigVert zShape3DContigVert flat_map]. pose proof (ph_contig ph p) as C. destruct (zPH3DContigVert ph p) as [[v d]|]; [|contradiction].
  destruct C as (I & D & M). fold (contig_step p). destruct (contig_fold p phs v d d D ltac:(lra)) as (v' & d' & x' & -> & A & B & C & F). exists v', d'. split; [reflexivity|]. split; [|split; [exact A|]].
  - apply in_app_iff. destruct C as [->|C]; auto.
  - intros w W. apply in_app_iff in W as [W|W]; [specialize (M w W); lra|apply F, W].
Qed.
Lemma multi_contig_undefined ms p : ms = [] \/ (exists s, List.In s ms /\ forall ph, s <> ShPH ph) -> zMultiShape3DContigVert ms p = None.
Proof.
  intros [->|(s & I & NP)]; [reflexivity|]. destruct ms as [|s0 ms]; [destruct I|]. cbn [zMultiShape3DContigVert]. fold (contig_step p).
  assert (U : zShape3DContigVert s p = Undefined) by (destruct s; try reflexivity; exfalso; eapply NP; reflexivity).
  destruct I as [->|I]; [rewrite U; reflexivity|]. destruct (zShape3DContigVert s0 p) as [| |v d]; [reflexivity|reflexivity|].
  assert (N : forall l acc, List.In s l -> fold_left (contig_step p) l acc = None).
  { assert (Z : forall l, fold_left (contig_step p) l None = None) by (induction l; [reflexivity|exact IHl]).
    induction l as [|a l IH]; intros acc []; cbn [fold_left]; [subst a|apply IH; assumption]. unfold contig_step at 2. rewrite U. destruct acc as [[[? ?] ?]|]; apply Z. }
  rewrite (N ms _ I). reflexivity.
Qed.

(** ** exported vertices and the bounding ball *)
Lemma multi_verts ms : match zMultiShape3DVertData ms with
  | Some l => Forall (fun s => shapeVerts s <> None) ms /\ forall v, List.In v l <-> exists s vs, List.In s ms /\ shapeVerts s = Some vs /\ List.In v vs
  | None => exists s, List.In s ms /\ shapeVerts s = None
  end.
Proof.
  induction ms as [|s ms IH]; cbn [zMultiShape3DVertData].
  - split; [constructor|]. intros v. split; [intros []|intros (s & vs & [] & _)].
  - destruct (shapeVerts s) as [vs|] eqn:E; [|exists s; split; [left; reflexivity|exact E]]. destruct (zMultiShape3DVertData ms) as [l|].
    + destruct IH as (A & B). split; [constructor; [congruence|exact A]|]. intros v. rewrite in_app_iff, B. split.
      * intros [H|(u & us & U & Eu & H)]; [exists s, vs; split; [left; reflexivity|auto]|exists u, us; split; [right; exact U|auto]].
      * intros (u & us & [<-|U] & Eu & H); [left; congruence|right; exists u, us; auto].
    + destruct IH as (u & U & Eu). exists u. split; [right; exact U|exact Eu].
Qed.
Lemma box_verts b : shapeVerts (ShBox b) = Some (map (zBox3DVert b) (seq 0 8)).
Proof. reflexivity. Qed.
Lemma obb_far b c p : good_box b -> in_obb b p -> exists i, (i < 8)%nat /\ dist c p <= dist c (zBox3DVert b i).
Proof.
  intros G H. destruct (obb_vertex_max (vsub p c) b p G H) as (i & I & L). exists i. split; [exact I|]. set (v := zBox3DVert b i) in *. clearbody v.
  unfold dist, norm. apply sqrt_le_1_alt.
  assert (E : dot (vsub c v) (vsub c v) = dot (vsub c p) (vsub c p) + dot (vsub v p) (vsub v p) + 2 * (dot (vsub p c) v - dot (vsub p c) p)) by (clear; spec_unfold; ring).
  pose proof (dot_self_nonneg (vsub v p)). lra.
Qed.
(** the ball of a set of shapes with at least one vertex: when found without warning it holds, up to the tolerance, every vertex
    of every member and every point of members that are boxes *)
Lemma multi_ball ms l : zMultiShape3DVertData ms = Some l -> l <> [] -> exists N r, (forall fuel, (N <= fuel)%nat -> zMultiShape3DBoundingBall fuel ms = Some r) /\
  (r = Crashed /\ (3 < length l)%nat \/
   exists b d warned, r = Found (Some b) warned /\ fball b = Some d /\ incl (fpoints b) l /\ on_sphere (scen d) (srad d) (fpoints b) /\
     (warned = false ->
        (forall s vs v, List.In s ms -> shapeVerts s = Some vs -> List.In v vs -> dist (scen d) v < srad d + zTOL) /\
        (forall bx p, List.In (ShBox bx) ms -> good_box bx -> in_obb bx p -> dist (scen d) p < srad d + zTOL))).
Proof.
  intros E NE. destruct (space_ball l NE) as (N & r & F & H). exists N, r. split; [intros fuel L; unfold zMultiShape3DBoundingBall; rewrite E, (F fuel L); reflexivity|].
  destruct H as [H|(b & d & w & A & B & C & D & O & P & Q & W)]; [left; exact H|right]. exists b, d, w. repeat (split; [assumption|]). intros E0. specialize (W E0).
  assert (V : forall s vs v, List.In s ms -> shapeVerts s = Some vs -> List.In v vs -> dist (scen d) v < srad d + zTOL).
  { intros s vs v I Es Iv. apply W. pose proof (multi_verts ms) as M. rewrite E in M. apply M. exists s, vs. auto. }
  split; [exact V|]. intros bx p I G Hp. destruct (obb_far bx (scen d) p G Hp) as (i & Hi & L). eapply Rle_lt_trans; [exact L|].
  apply (V (ShBox bx) _ _ I (box_verts bx)). apply in_map_iff. exists i. split; [reflexivity|]. apply in_seq. lia.
Qed.

(** ** boxes of an octree *)
Lemma from_aabox b : proper b -> zShape3DBoxCreateFromAABox b = Some (ShBox (zAABox3DToBox3D b)).
Proof.
  intros (X & Y & Z). unfold zShape3DBoxCreateFromAABox. rewrite obb_create by (unfold isometry; mring). unfold zAABox3DDepth, zAABox3DWidth, zAABox3DHeight. rewrite !Rabs_right by lra.
  unfold zAABox3DToBox3D. replace (zVec3DMid (bmax b) (bmin b)) with (zAABox3DCenter b) by (unfold zAABox3DCenter, zVec3DMid; apply vec3_ext; cbn [vx vy vz]; lra).
  reflexivity.
Qed.
Lemma leaf_proper e o : forall reg b, lwf e reg o -> List.In b (zVec3DOctantToAABox3DList o) -> proper b /\ forall p, in_box b p -> in_box reg p.
Proof.
  induction o as [|r c pts sub IH]; intros reg b W I; [destruct I|]. destruct W as (-> & P & _ & _ & S). cbn [zVec3DOctantToAABox3DList] in I.
  destruct (existsb _ octs).
  - apply in_flat_map in I as (i & _ & I). destruct (IH i _ b (S i) I) as (A & B). split; [exact A|]. intros p H. specialize (B p H).
    assert (K : slack 0 reg p). { apply (subreg_slack 0 reg i p P). unfold in_box in B. unfold slack. lra. } unfold slack in K. unfold in_box. lra.
  - destruct I as [<-|[]]. split; [exact P|auto].
Qed.
Lemma mapM_boxes l : Forall proper l -> mapM zShape3DBoxCreateFromAABox l = Some (map (fun b => ShBox (zAABox3DToBox3D b)) l).
Proof. induction 1 as [|b l H _ IH]; [reflexivity|]. cbn [mapM map]. rewrite (from_aabox b H), IH. reflexivity. Qed.
Lemma multi_octree x1 y1 z1 x2 y2 z2 res h : 0 <= res -> sane h ->
  (forall p, List.In p (inserted h) -> betw x1 x2 (vx p) /\ betw y1 y2 (vy p) /\ betw z1 z2 (vz p)) ->
  exists n, forall fuel, (n <= fuel)%nat -> exists t ms, run_oops fuel (zVec3DOctreeInit x1 y1 z1 x2 y2 z2 res) h = Some t /\ zMultiShape3DFromOctree t = Some ms /\
  ms <> [] /\ Forall shape_ok ms /\ (forall p, Forall (fun s => ordinary s p) ms) /\ Forall quadratic_free ms /\
  (forall p, union (map shape_solid ms) p <-> exists b, List.In b (zVec3DOctantToAABox3DList (o_root t)) /\ in_box b p) /\
  (forall p, List.In p (inserted h) -> union (map shape_solid ms) p) /\
  (forall p, union (map shape_solid ms) p -> betw x1 x2 (vx p) /\ betw y1 y2 (vy p) /\ betw z1 z2 (vz p)).
Proof.
  intros Hr SN IN. destruct (init_ok 0 x1 y1 z1 x2 y2 z2 res Hr) as (T & O & P). destruct (octree_history x1 y1 z1 x2 y2 z2 res h Hr SN IN) as (n1 & H1).
  set (reg := box_of x1 y1 z1 x2 y2 z2) in *.
  destruct (history_ok 0 reg h ltac:(lra)) with (t := zVec3DOctreeInit x1 y1 z1 x2 y2 z2 res) as (n2 & H2); auto.
  { intros p Hp _. destruct (IN p Hp) as (A & B & C). apply (betw_box x1 y1 z1 x2 y2 z2); auto. }
  exists (n1 + n2)%nat. intros fuel L. destruct (H1 fuel ltac:(lia)) as (t & R & _ & HB). destruct (H2 fuel ltac:(lia)) as (t' & R' & (W & N & _) & _). rewrite R in R'. injection R' as <-.
  apply owf_lwf in W. destruct (octree_box_count t [] N) as (BC & BN). set (bl := zVec3DOctantToAABox3DList (o_root t)) in *.
  assert (FP : Forall proper bl) by (apply Forall_forall; intros b I; apply (leaf_proper 0 _ reg b W I)).
  exists t, (map (fun b => ShBox (zAABox3DToBox3D b)) bl). split; [exact R|].
  assert (UN : forall p, union (map shape_solid (map (fun b => ShBox (zAABox3DToBox3D b)) bl)) p <-> exists b, List.In b bl /\ in_box b p).
  { intros p. rewrite union_solid. rewrite Forall_forall in FP. split.
    - intros (s & I & H). apply in_map_iff in I as (b & <- & I). exists b. split; [exact I|]. apply (obb_of_aab b (FP b I)), H.
    - intros (b & I & H). exists (ShBox (zAABox3DToBox3D b)). split; [apply (in_map (fun b => ShBox (zAABox3DToBox3D b))), I|]. apply (obb_of_aab b (FP b I)), H. }
  split; [unfold zMultiShape3DFromOctree; rewrite BC; cbn [app]; destruct bl; [contradiction|]; cbn [length Nat.eqb]; apply mapM_boxes, FP|].
  split; [destruct bl; [contradiction|discriminate]|].
  split; [apply Forall_forall; intros s I; apply in_map_iff in I as (b & <- & I); rewrite Forall_forall in FP; apply (obb_of_aab b (FP b I))|].
  split; [intros p; apply Forall_forall; intros s I; apply in_map_iff in I as (b & <- & I); exact Logic.I|].
  split; [apply Forall_forall; intros s I; apply in_map_iff in I as (b & <- & I); exact Logic.I|].
  split; [exact UN|]. split; [intros p Hp; apply UN, HB, Hp|].
  intros p Hp. apply UN in Hp as (b & I & H). apply (leaf_proper 0 _ reg b W I) in H. apply (aab_create x1 y1 z1 x2 y2 z2) in H. exact H.
Qed.
(** an octree without points is turned into one box that is its whole region *)
Lemma empty_octree x1 y1 z1 x2 y2 z2 res : zMultiShape3DFromOctree (zVec3DOctreeInit x1 y1 z1 x2 y2 z2 res) = Some [ShBox (zAABox3DToBox3D (zAABox3DCreate x1 y1 z1 x2 y2 z2))].
Proof.
  assert (P : proper (zAABox3DCreate x1 y1 z1 x2 y2 z2)) by apply aab_create.
  change (match zShape3DBoxCreateFromAABox (zAABox3DCreate x1 y1 z1 x2 y2 z2) with Some a => Some [a] | None => None end = Some [ShBox (zAABox3DToBox3D (zAABox3DCreate x1 y1 z1 x2 y2 z2))]).
  rewrite (from_aabox _ P). reflexivity.
Qed.

(** ** a cylinder below the point hides a nearer ball *)
Lemma multi_refuted ans : exists ms p d cp, Forall shape_ok ms /\ zMultiShape3DClosest ans ms p = Some (d, cp) /\ d < 0 /\ ~ union (map shape_solid ms) p /\
  exists x, union (map shape_solid ms) x /\ dist p x < dist p cp.
Proof.
  set (cy := CY v3zero (V3 0 0 1) 1 8). set (sp := ModelShape.SP (V3 0 0 (9/2)) 1 8). set (p := V3 0 0 3).
  assert (N1 : ~ negligible (vsub (cc1 cy) (cc0 cy))).
  { unfold cy, negligible. cbn [cc0 cc1]. intros (_ & _ & H). revert H. unfold vsub, v3zero. cbn [vx vy vz]. replace (1 - 0) with 1 by ring. rewrite Rabs_R1. pose proof zTOL_small. lra. }
  destruct (cyl_closest cy p N1 ltac:(cbn; lra)) as (dv & cp & h & w & AX & E & _ & NR & SG & _).
  assert (NL : norm (vsub (cc1 cy) (cc0 cy)) = 1). { unfold cy, norm. cbn [cc0 cc1]. replace (dot _ _) with 1 by (unfold v3zero; spec_unfold; ring). apply sqrt_1. }
  assert (AX' : axial (cc0 cy) (cc1 cy) p 3 v3zero). { unfold axial. rewrite NL. unfold cy, p. cbn [cc0 cc1]. split; [unfold v3zero; spec_unfold; ring|]. unfold v3zero. apply vec3_ext; spec_unfold; ring. }
  destruct (axial_fun _ _ _ _ _ _ _ ltac:(rewrite NL; lra) AX AX') as (-> & ->). cbv zeta in SG. rewrite NL in SG. rename SG into DV.
  assert (dv = - dist p cp) as -> by (apply DV; split; [lra|]; cbn [crad cy]; rewrite (proj2 (norm_zero_iff v3zero) eq_refl); lra). clear DV.
  assert (FAR : 2 <= dist p cp).
  { destruct NR as ((t & w & T & D & _ & ->) & _). unfold cy in *. cbn [cc0 cc1] in *. assert (WZ : vz w = 0) by (revert D; unfold v3zero; spec_unfold; lra).
    unfold dist, norm. apply Rsqr_incr_0_var; [|apply sqrt_pos]. rewrite Rsqr_sqrt by apply dot_self_nonneg. unfold Rsqr, p, v3zero. spec_unfold. rewrite WZ. nra. }
  assert (Cs : zShape3DClosest ans (ShSphere sp) p <> None /\ forall d c, zShape3DClosest ans (ShSphere sp) p = Some (d, c) -> d = 1/2).
  { cbn [zShape3DClosest]. destruct (sphere_closest sp p ltac:(cbn; lra)) as (c0 & -> & _). split; [discriminate|]. intros d c H. injection H as <- _. unfold sp, p, dist, norm. cbn [scen srad].
    replace (dot _ _) with ((3/2) * (3/2)) by (spec_unfold; field). rewrite sqrt_square by lra. lra. }
  exists [ShSphere sp; ShCyl cy], p, (- dist p cp), cp. split; [constructor; [cbn; lra|constructor; [|constructor]]; cbn [shape_ok]; split; [exact N1|cbn; lra]|].
  split.
  { unfold zMultiShape3DClosest. cbn [fold_left]. destruct (zShape3DClosest ans (ShSphere sp) p) as [[d c]|]; [|destruct Cs as (K & _); contradiction]. destruct Cs as (_ & K). rewrite (K d c eq_refl).
    cbn [zShape3DClosest]. rewrite E. destruct (Rltb_reflect (- dist p cp) (1 / 2)); [reflexivity|lra]. }
  split; [lra|]. split.
  - intros H. apply union_solid in H as (s & [<-|[<-|[]]] & H); cbn [shape_solid] in H.
    + unfold ball, sp, dist, norm, p in H. cbn [scen srad] in H. revert H. replace (dot _ _) with ((3/2) * (3/2)) by (spec_unfold; field). rewrite sqrt_square by lra. lra.
    + destruct NR as (_ & NR). specialize (NR p H). rewrite FactsPH4.dist_self in NR. lra.
  - exists (V3 0 0 (7/2)). split.
    + apply union_solid. exists (ShSphere sp). split; [left; reflexivity|]. cbn [shape_solid]. unfold ball, sp, dist, norm. cbn [scen srad]. replace (dot _ _) with (1 * 1) by (spec_unfold; field). rewrite sqrt_square by lra. lra.
    + apply Rlt_le_trans with 2; [|exact FAR]. unfold p, dist, norm. replace (dot _ _) with ((1/2) * (1/2)) by (spec_unfold; field). rewrite sqrt_square by lra. lra.
Qed.

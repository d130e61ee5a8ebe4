(** Ends, allocation, transformations, meshes, search of a segment. *)
From Verif Require Import Base Spec SpecMesh SpecNurbs ModelNurbs FactsAlg FactsVec FactsElem FactsFrame FactsObb FactsNurbs FactsNurbs2 FactsNurbs8 FactsNurbs9 FactsSweep.
From Coq Require Import List Lra Lia.
Import ListNotations.
Open Scope R_scope.

(** * Ends *)
Section Ends.
Variables (p : bspl) (t : R) (o k : nat).
Hypothesis A : at_seg p t o k.
Lemma basis_left : (forall j, (k - o < j <= k)%nat -> bs_at p j = t) -> forall r i, (r <= o)%nat -> zBSplineParamBasis p t i r k = if Nat.eqb i (k - r) then 1 else 0.
Proof.
  intros H. induction r as [|r IH]; intros i R; [cbn; rewrite Nat.sub_0_r; reflexivity|].
  pose proof (as_ord _ _ _ _ A) as OK. rewrite (basis_g p k o (as_up _ _ _ _ A) (as_pos _ _ _ _ A)) by exact R. rewrite !IH by lia.
  destruct (Nat.eqb_spec i (k - r)) as [E1|E1]; destruct (Nat.eqb_spec (i + 1) (k - r)) as [E2|E2]; destruct (Nat.eqb_spec i (k - S r)) as [E3|E3]; try lia.
  - rewrite (H i) by lia. ring.
  - rewrite <- (H (i + 1)%nat) at 2 by lia. replace (i + S r + 1)%nat with (i + 1 + S r)%nat by lia. rewrite (gr_one p k o (as_up _ _ _ _ A) (as_pos _ _ _ _ A)) by lia. ring.
  - ring.
Qed.
Lemma basis_right : (forall j, (k < j <= k + o)%nat -> bs_at p j = t) -> forall r i, (r <= o)%nat -> zBSplineParamBasis p t i r k = if Nat.eqb i k then 1 else 0.
Proof.
  intros H. induction r as [|r IH]; intros i R; [reflexivity|].
  pose proof (as_ord _ _ _ _ A) as OK. rewrite (basis_g p k o (as_up _ _ _ _ A) (as_pos _ _ _ _ A)) by exact R. rewrite !IH by lia.
  destruct (Nat.eqb_spec i k) as [E1|E1]; destruct (Nat.eqb_spec (i + 1) k) as [E2|E2]; try lia.
  - rewrite <- (H (i + S r)%nat) at 1 by lia. rewrite (gr_one p k o (as_up _ _ _ _ A) (as_pos _ _ _ _ A)) by lia. ring.
  - rewrite (H (i + S r + 1)%nat) by lia. ring.
  - ring.
Qed.
End Ends.
Lemma end_basis seg o n ks sl t i : finds seg -> good_knots o n ks -> simple_ends o n ks -> at_end o n ks t i ->
  in_domain o n ks t /\ (i < n)%nat /\ List.In i (active (BS o ks sl) (seg o ks t)) /\ forall j, zBSplineParamBasis (BS o ks sl) t j o (seg o ks t) = if Nat.eqb j i then 1 else 0.
Proof.
  intros F G (CL & C1 & C2) E. pose proof G as (ON & L & M & PO). assert (D : in_domain o n ks t) by (unfold in_domain; destruct E as [[-> _]|[-> _]]; lra). split; [exact D|]. split; [destruct E as [[_ ->]|[_ ->]]; lia|].
  destruct (found_seg seg o n ks sl t F G D) as [A K]. set (k := seg o ks t) in *. pose proof (as_lo _ _ _ _ A) as LO. pose proof (as_hi _ _ _ _ A) as HI. pose proof (as_pos _ _ _ _ A) as PS. pose proof (as_ord _ _ _ _ A) as OK. rewrite !bs_knot_of in *. cbn [bs_knot] in *.
  destruct CL as [CL CR]. destruct E as [[-> ->]|[-> ->]].
  - assert (k = o). { destruct (Nat.eq_dec k o); [assumption|]. pose proof (M (S o) k ltac:(lia)). lra. } subst k. rewrite H in *. split; [unfold active; cbn [bs_order]; rewrite Nat.sub_diag; left; reflexivity|].
    intros j. rewrite (basis_left (BS o ks sl) (knot_of ks o) o o A); [rewrite Nat.sub_diag; reflexivity| |lia]. intros q Q. apply CL. lia.
  - assert (k = n - 1)%nat. { destruct (Nat.eq_dec k (n - 1)); [assumption|]. pose proof (M (S k) (n - 1)%nat ltac:(lia)). lra. } rewrite H in *. split; [unfold active; cbn [bs_order]; apply in_seq; lia|].
    intros j. rewrite (basis_right (BS o ks sl) (knot_of ks n) o (n - 1) A); [reflexivity| |lia]. intros q Q. apply CR. lia.
Qed.
Lemma rsum_zero {A} (f : A -> R) l : (forall a, List.In a l -> f a = 0) -> rsum f l = 0.
Proof. intros H. induction l as [|a l IH]; [reflexivity|]. rewrite rsum_cons, H by (left; reflexivity). rewrite IH; [ring|]. intros; apply H; right; assumption. Qed.
Lemma rsum_one (f : nat -> R) l i : NoDup l -> List.In i l -> (forall j, j <> i -> f j = 0) -> rsum f l = f i.
Proof.
  intros N I H. induction N as [|a l NI N IH]; [destruct I|]. rewrite rsum_cons. destruct I as [->|I].
  - rewrite rsum_zero; [ring|]. intros b B. apply H. intros ->. contradiction.
  - rewrite H by (intros ->; contradiction). rewrite IH by exact I. ring.
Qed.
Lemma nurbs_corner seg n u v i j : finds seg -> good_nurbs n -> simple_ends (bs_order (nu_0 n)) (nu_n0 n) (bs_knot (nu_0 n)) -> simple_ends (bs_order (nu_1 n)) (nu_n1 n) (bs_knot (nu_1 n)) ->
  at_end (bs_order (nu_0 n)) (nu_n0 n) (bs_knot (nu_0 n)) u i -> at_end (bs_order (nu_1 n)) (nu_n1 n) (bs_knot (nu_1 n)) v j -> zTOL <= Rabs (nc_w (nu_net n i j)) ->
  in_params n u v /\ zNURBS3DVec seg n u v = Some (Some (nc_cp (nu_net n i j))).
Proof.
  intros F [G0 G1] C0 C1 E0 E1 W. destruct (end_basis seg _ _ _ (bs_slice (nu_0 n)) u i F G0 C0 E0) as (D0 & I & I' & B0). destruct (end_basis seg _ _ _ (bs_slice (nu_1 n)) v j F G1 C1 E1) as (D1 & J & J' & B1).
  split; [split; assumption|]. destruct (found seg n u v F (conj G0 G1) (conj D0 D1)) as (IN & _). rewrite vec_eval by exact IN.
  assert (R0 : forall p, BS (bs_order p) (bs_knot p) (bs_slice p) = p) by (intros []; reflexivity). rewrite R0 in I', J', B0, B1. fold (zBSplineParamSeg seg (nu_0 n) u) in I', B0. fold (zBSplineParamSeg seg (nu_1 n) v) in J', B1.
  set (su := zBSplineParamSeg seg (nu_0 n) u) in *. set (sv := zBSplineParamSeg seg (nu_1 n) v) in *.
  assert (SU : forall f, rsum (fun a => Bu n u su a * f a) (Iu n su) = f i). { intros f. rewrite (rsum_one _ _ i); [unfold Bu; rewrite B0, Nat.eqb_refl; ring|unfold Iu, active; apply seq_NoDup|exact I'|]. intros a Ha. unfold Bu. rewrite B0. destruct (Nat.eqb_spec a i); [contradiction|ring]. }
  assert (SV : forall f, rsum (fun b => f b * Bv n v sv b) (Iv n sv) = f j). { intros f. rewrite (rsum_one _ _ j); [unfold Bv; rewrite B1, Nat.eqb_refl; ring|unfold Iv, active; apply seq_NoDup|exact J'|]. intros b Hb. unfold Bv. rewrite B1. destruct (Nat.eqb_spec b j); [contradiction|ring]. }
  assert (DE : den n u v su sv = zNURBS3DWeight n i j). { unfold den. rewrite SU, SV. reflexivity. }
  assert (NU_ : num n u v su sv = vscale (zNURBS3DWeight n i j) (zNURBS3DCP n i j)).
  { apply vec3_ext; unfold num; rewrite ?vsum_x, ?vsum_y, ?vsum_z; cbn [vx vy vz vscale]; rewrite SU; rewrite ?vsum_x, ?vsum_y, ?vsum_z; cbn [vx vy vz vscale].
    - rewrite (rsum_ext _ (fun b => zNURBS3DWeight n i b * vx (zNURBS3DCP n i b) * Bv n v sv b)) by (intros; ring). apply SV.
    - rewrite (rsum_ext _ (fun b => zNURBS3DWeight n i b * vy (zNURBS3DCP n i b) * Bv n v sv b)) by (intros; ring). apply SV.
    - rewrite (rsum_ext _ (fun b => zNURBS3DWeight n i b * vz (zNURBS3DCP n i b) * Bv n v sv b)) by (intros; ring). apply SV. }
  rewrite DE, NU_. fold (zNURBS3DWeight n i j) in W. unfold zIsTiny, zIsTol. destruct (Rltb_reflect (Rabs (zNURBS3DWeight n i j)) zTOL); [lra|]. do 2 f_equal. fold (zNURBS3DCP n i j).
  assert (zNURBS3DWeight n i j <> 0) by (intros Z; rewrite Z, Rabs_R0 in W; pose proof zTOL_pos; lra). apply vec3_ext; spec_unfold; field; assumption.
Qed.

(** * Allocation *)
Lemma knot_init_at o s i : (o < s)%nat -> nth i (knotInit o s) 0 = if Nat.leb i o then 0 else if Nat.ltb i s then INR (i - o) else if Nat.leb i (s + o) then INR (s - o) else 0.
Proof.
  intros H. unfold knotInit. destruct (Nat.leb_spec i o).
  - rewrite app_nth1 by (rewrite repeat_length; lia). apply nth_repeat.
  - rewrite app_nth2 by (rewrite repeat_length; lia). rewrite repeat_length. destruct (Nat.ltb_spec i s).
    + rewrite app_nth1 by (rewrite map_length, seq_length; lia). rewrite (nth_indep _ 0 (INR 0)) by (rewrite map_length, seq_length; lia). rewrite map_nth, seq_nth by lia. f_equal. lia.
    + rewrite app_nth2 by (rewrite map_length, seq_length; lia). rewrite map_length, seq_length. destruct (Nat.leb_spec i (s + o)).
      * rewrite (nth_indep _ 0 (INR (s - o))) by (rewrite repeat_length; lia). apply nth_repeat.
      * apply nth_overflow. rewrite repeat_length. lia.
Qed.
Lemma knot_init_good o s : (o < s)%nat -> good_knots o s (knotInit o s) /\ simple_ends o s (knotInit o s) /\ knot_of (knotInit o s) o = 0 /\ knot_of (knotInit o s) s = INR (s - o).
Proof.
  intros H. assert (L : length (knotInit o s) = (s + o + 1)%nat) by (unfold knotInit; rewrite !app_length, !repeat_length, map_length, seq_length; lia).
  assert (K0 : knot_of (knotInit o s) o = 0) by (unfold knot_of; rewrite knot_init_at by exact H; rewrite Nat.leb_refl; reflexivity).
  assert (KN : forall i, (s <= i <= s + o)%nat -> knot_of (knotInit o s) i = INR (s - o)).
  { intros i I. unfold knot_of; rewrite knot_init_at by exact H. destruct (Nat.leb_spec i o); [lia|]. destruct (Nat.ltb_spec i s); [lia|]. destruct (Nat.leb_spec i (s + o)); [reflexivity|lia]. }
  assert (PO : 0 < INR (s - o)) by (apply lt_0_INR; lia).
  split; [|split; [|split; [exact K0|apply KN; lia]]].
  - split; [exact H|]. split; [exact L|]. split; [|rewrite K0, KN by lia; exact PO]. intros i j I. rewrite L in I. unfold knot_of. rewrite !knot_init_at by exact H.
    destruct (Nat.leb_spec i o); destruct (Nat.leb_spec j o); try lia; try lra.
    + destruct (Nat.ltb_spec j s); [apply pos_INR|]. destruct (Nat.leb_spec j (s + o)); [lra|lia].
    + destruct (Nat.ltb_spec i s); destruct (Nat.ltb_spec j s); try lia; [apply le_INR; lia| |]; destruct (Nat.leb_spec j (s + o)); try lia; [apply le_INR; lia|]. destruct (Nat.leb_spec i (s + o)); [lra|lia].
  - split; [split|split].
    + intros i I. rewrite K0. unfold knot_of. rewrite knot_init_at by exact H. destruct (Nat.leb_spec i o); [reflexivity|lia].
    + intros i I. rewrite !KN by lia. reflexivity.
    + rewrite K0. unfold knot_of. rewrite knot_init_at by exact H. destruct (Nat.leb_spec (S o) o); [lia|]. destruct (Nat.ltb_spec (S o) s); [apply lt_0_INR; lia|]. destruct (Nat.leb_spec (S o) (s + o)); [exact PO|]. assert (s = 1 /\ o = 0)%nat by lia. lia.
    + rewrite (KN s) by lia. unfold knot_of. rewrite knot_init_at by exact H. destruct (Nat.leb_spec (s - 1) o); [exact PO|]. destruct (Nat.ltb_spec (s - 1) s); [apply lt_INR; lia|lia].
Qed.
Lemma nurbs_alloc s1 s2 o1 o2 sl : (zNURBS3DAlloc s1 s2 o1 o2 sl = None <-> (s1 <= o1 \/ s2 <= o2)%nat) /\
  forall n, zNURBS3DAlloc s1 s2 o1 o2 sl = Some n -> good_nurbs n /\ simple_ends o1 s1 (bs_knot (nu_0 n)) /\ simple_ends o2 s2 (bs_knot (nu_1 n)) /\ bs_order (nu_0 n) = o1 /\ bs_order (nu_1 n) = o2 /\ nu_n0 n = s1 /\ nu_n1 n = s2 /\
    (forall u v, in_params n u v <-> 0 <= u <= INR (s1 - o1) /\ 0 <= v <= INR (s2 - o2)) /\ (forall i j, nc_w (nu_net n i j) = 1).
Proof.
  unfold zNURBS3DAlloc. destruct (Nat.leb_spec s1 o1); destruct (Nat.leb_spec s2 o2); cbn [orb]; (split; [split; [intros; try discriminate; lia|intros; try reflexivity; lia]|]); try discriminate.
  intros n E. injection E as <-. destruct (knot_init_good o1 s1 H) as (A1 & B1 & C1 & D1). destruct (knot_init_good o2 s2 H0) as (A2 & B2 & C2 & D2).
  split; [split; [exact A1|exact A2]|]. split; [exact B1|]. split; [exact B2|]. do 4 (split; [reflexivity|]). split; [|reflexivity].
  intros u v. unfold in_params, in_domain. cbn [nu_0 nu_1 nu_n0 nu_n1 bs_order bs_knot]. rewrite C1, C2, D1, D2. tauto.
Qed.

(** * Transformations *)
Lemma xform_vec seg n f u v : zNURBS3DVec seg (zNURBS3DXform n f) u v = option_map (option_map (act f)) (zNURBS3DVec seg n u v).
Proof.
  unfold zNURBS3DXform. rewrite (vec_affine seg n u v (zXform3D f) (fpos f) (fatt f)) by (intros; rewrite xform_spec; reflexivity).
  destruct (zNURBS3DVec seg n u v) as [[p|]|]; cbn [option_map]; rewrite ?xform_spec; reflexivity.
Qed.
Lemma xforminv_vec seg n f u v p : isometry (fatt f) -> (zNURBS3DVec seg (zNURBS3DXformInv n f) u v = Some (Some p) <-> zNURBS3DVec seg n u v = Some (Some (act f p))).
Proof.
  intros I. unfold zNURBS3DXformInv. rewrite (vec_affine seg n u v (zXform3DInv f) (vneg (mvec (mtr (fatt f)) (fpos f))) (mtr (fatt f))).
  2: { intros q. rewrite xforminv_spec. apply vec3_ext; spec_unfold; ring. }
  assert (L : forall q, zXform3DInv f (act f q) = q). { intros q. rewrite xforminv_spec. unfold act. replace (vsub (vadd (fpos f) (mvec (fatt f) q)) (fpos f)) with (mvec (fatt f) q) by (apply vec3_ext; spec_unfold; ring). apply iso_inv_l, I. }
  assert (R : forall q, act f (zXform3DInv f q) = q). { intros q. rewrite xforminv_spec. unfold act. rewrite iso_inv_r by exact I. apply vec3_ext; spec_unfold; ring. }
  destruct (zNURBS3DVec seg n u v) as [[q|]|]; cbn [option_map]; split; intros E; try discriminate; injection E as E; do 2 f_equal; [rewrite <- E; symmetry; apply R|rewrite E; apply L].
Qed.
Lemma mirror_vec seg n axis u v : (axis < 3)%nat -> zNURBS3DVec seg (zNURBS3DMirror n axis) u v = option_map (option_map (reflect3 axis)) (zNURBS3DVec seg n u v).
Proof.
  intros A. unfold zNURBS3DMirror.
  assert (H : forall p, flip_e axis p = reflect3 axis p) by (intros p; assert (axis = 0 \/ axis = 1 \/ axis = 2)%nat as [-> | [-> | -> ]] by lia; unfold reflect3; cbn; apply vec3_ext; cbn; ring).
  rewrite (vec_affine seg n u v (flip_e axis) v3zero (cols3 (reflect3 axis (V3 1 0 0)) (reflect3 axis (V3 0 1 0)) (reflect3 axis (V3 0 0 1)))).
  - destruct (zNURBS3DVec seg n u v) as [[p|]|]; cbn [option_map]; rewrite ?H; reflexivity.
  - intros p. rewrite H. assert (axis = 0 \/ axis = 1 \/ axis = 2)%nat as [-> | [-> | -> ]] by lia; unfold reflect3; cbn [Nat.eqb]; apply vec3_ext; spec_unfold; ring.
Qed.

(** * Meshes *)
Lemma slice_way o n ks sl k : length ks = (n + o + 1)%nat -> zBSplineParamKnotSlice (BS o ks sl) k = part_way o n ks sl k.
Proof. intros L. unfold zBSplineParamKnotSlice, zBSplineParamKnotE, zBSplineParamKnotS, part_way, bs_at, knot_of. cbn [bs_order bs_knot bs_slice]. rewrite L. replace (n + o + 1 - o - 1)%nat with n by lia. unfold Rdiv. ring. Qed.
Lemma way_in o n ks sl k : good_knots o n ks -> (0 < sl)%nat -> (k <= sl)%nat -> in_domain o n ks (part_way o n ks sl k).
Proof.
  intros (_ & _ & _ & P) S K. apply le_INR in K. apply lt_INR in S. cbn [INR] in S. pose proof (pos_INR k). unfold in_domain, part_way.
  assert (0 <= INR k / INR sl <= 1) by (split; [apply Rmult_le_pos; [lra|left; apply Rinv_0_lt_compat; lra]|apply Rmult_le_reg_r with (INR sl); [lra|]; replace (INR k / INR sl * INR sl) with (INR k) by (field; lra); lra]). nra.
Qed.
Lemma prod_nth {A B} (l1 : list A) (l2 : list B) i j a b : nth_error l1 i = Some a -> nth_error l2 j = Some b -> nth_error (list_prod l1 l2) (i * length l2 + j) = Some (a, b).
Proof.
  revert i. induction l1 as [|x l1 IH]; intros i I J; [destruct i; discriminate|]. cbn [list_prod]. destruct i as [|i].
  - injection I as ->. cbn [Nat.mul Nat.add]. rewrite nth_error_app1 by (rewrite map_length; apply nth_error_Some; congruence). rewrite nth_error_map, J. reflexivity.
  - rewrite nth_error_app2 by (rewrite map_length; lia). rewrite map_length. replace (S i * length l2 + j - length l2)%nat with (i * length l2 + j)%nat by lia. apply IH; assumption.
Qed.
Lemma seq_nth_error k m : (k < m)%nat -> nth_error (seq 0 m) k = Some k.
Proof. intros H. rewrite (nth_error_nth' _ 0%nat) by (rewrite seq_length; exact H). rewrite seq_nth by exact H. reflexivity. Qed.
Lemma flat_some {A B} (h : A -> B) l : flat_map (fun o : option B => match o with Some p => [p] | None => [] end) (map (fun a => Some (h a)) l) = map h l.
Proof. induction l as [|a l IH]; [reflexivity|]. cbn. f_equal. exact IH. Qed.
Lemma nurbs_mesh seg n : finds seg -> good_nurbs n -> weights_from zTOL n -> let n0 := bs_slice (nu_0 n) in let n1 := bs_slice (nu_1 n) in (0 < n0)%nat -> (0 < n1)%nat ->
  exists m, zNURBS3DToPH seg n = Some m /\ length (m_verts m) = m_nv m /\ length (m_faces m) = m_nf m /\ m_nv m = ((n0 + 1) * (n1 + 1))%nat /\ m_nf m = (2 * (n0 * n1))%nat /\
    (forall i j, (i <= n0)%nat -> (j <= n1)%nat -> exists p, nth_error (m_verts m) (i * (n1 + 1) + j) = Some p /\
       zNURBS3DVec seg n (part_way (bs_order (nu_0 n)) (nu_n0 n) (bs_knot (nu_0 n)) n0 i) (part_way (bs_order (nu_1 n)) (nu_n1 n) (bs_knot (nu_1 n)) n1 j) = Some (Some p)) /\
    (forall f, List.In f (m_faces m) <-> exists i j, (i < n0)%nat /\ (j < n1)%nat /\
       (f = (i * (n1 + 1) + j, (i + 1) * (n1 + 1) + j, (i + 1) * (n1 + 1) + (j + 1))%nat \/ f = (i * (n1 + 1) + j, (i + 1) * (n1 + 1) + (j + 1), i * (n1 + 1) + (j + 1))%nat)).
Proof.
  intros F G W n0 n1 P0 P1. unfold zNURBS3DToPH. fold n0 n1.
  assert (S0 : forall i, zBSplineParamKnotSlice (nu_0 n) i = part_way (bs_order (nu_0 n)) (nu_n0 n) (bs_knot (nu_0 n)) n0 i) by (intros i; unfold n0; destruct G as [(_ & L & _) _]; destruct (nu_0 n) as [o ks sl]; apply slice_way; exact L).
  assert (S1 : forall i, zBSplineParamKnotSlice (nu_1 n) i = part_way (bs_order (nu_1 n)) (nu_n1 n) (bs_knot (nu_1 n)) n1 i) by (intros i; unfold n1; destruct G as [_ (_ & L & _)]; destruct (nu_1 n) as [o ks sl]; apply slice_way; exact L).
  set (q := fun ij : nat * nat => match zNURBS3DVec seg n (part_way (bs_order (nu_0 n)) (nu_n0 n) (bs_knot (nu_0 n)) n0 (fst ij)) (part_way (bs_order (nu_1 n)) (nu_n1 n) (bs_knot (nu_1 n)) n1 (snd ij)) with Some (Some p) => p | _ => v3zero end).
  assert (Q : forall i j, (i <= n0)%nat -> (j <= n1)%nat -> zNURBS3DVec seg n (part_way (bs_order (nu_0 n)) (nu_n0 n) (bs_knot (nu_0 n)) n0 i) (part_way (bs_order (nu_1 n)) (nu_n1 n) (bs_knot (nu_1 n)) n1 j) = Some (Some (q (i, j)))).
  { intros i j I J. unfold q. cbn [fst snd]. destruct (vec_defined seg n (part_way (bs_order (nu_0 n)) (nu_n0 n) (bs_knot (nu_0 n)) n0 i) (part_way (bs_order (nu_1 n)) (nu_n1 n) (bs_knot (nu_1 n)) n1 j) F G) as [p ->]; [|exact W|reflexivity]. destruct G as [G0 G1]. split; apply way_in; assumption. }
  rewrite (mapM_some _ (fun ij => Some (q ij))). 2: { intros [i j] I. apply in_prod_iff in I as [I J]. apply in_seq in I, J. rewrite S0, S1. apply Q; lia. }
  rewrite flat_some. eexists. split; [reflexivity|]. cbn [m_verts m_nv m_faces m_nf]. split; [rewrite map_length, prod_length, !seq_length; reflexivity|].
  split; [|split; [reflexivity|split; [lia|split]]].
  - unfold grid_faces. clear. assert (L : forall (g1 g2 : nat -> nat * nat * nat) l, length (flat_map (fun j => [g1 j; g2 j]) l) = (2 * length l)%nat) by (intros g1 g2; induction l as [|x l IH]; [reflexivity|cbn [flat_map app length]; rewrite IH; lia]).
    assert (L2 : forall (g : nat -> list (nat * nat * nat)) k l, (forall i, length (g i) = k) -> length (flat_map g l) = (length l * k)%nat) by (intros g k l H; induction l as [|x l IH]; [reflexivity|cbn [flat_map length]; rewrite app_length, IH, H; lia]).
    rewrite (L2 _ (2 * n1)%nat) by (intros i; cbv zeta; rewrite L, seq_length; reflexivity). rewrite seq_length. lia.
  - intros i j I J. exists (q (i, j)). split; [|apply Q; assumption]. rewrite nth_error_map. replace (n1 + 1)%nat with (length (seq 0 (n1 + 1))) at 2 by apply seq_length. rewrite (prod_nth _ _ i j i j) by (apply seq_nth_error; lia). reflexivity.
  - intros f. unfold grid_faces. rewrite in_flat_map. split.
    + intros (i & I & H). apply in_flat_map in H as (j & J & H). apply in_seq in I, J. exists i, j. split; [lia|]. split; [lia|]. cbv zeta in H. cbn [List.In] in H. destruct H as [<-|[<-|[]]]; [left|right]; (f_equal; [f_equal|]; nia).
    + intros (i & j & I & J & H). exists i. split; [apply in_seq; lia|]. apply in_flat_map. exists j. split; [apply in_seq; lia|]. cbv zeta. cbn [List.In]. destruct H as [->| ->]; [left|right; left]; (f_equal; [f_equal|]; nia).
Qed.

(** * A search of a segment *)
Definition lin_seg (o : nat) (ks : list R) (t : R) : nat :=
  match find (fun k => Rleb (knot_of ks k) t && Rleb t (knot_of ks (S k)) && Rltb (knot_of ks k) (knot_of ks (S k))) (seq o (length ks - o - 1 - o)) with Some k => k | None => o end.
Lemma lin_finds : finds lin_seg.
Proof.
  intros o n ks t (ON & L & M & PO) [D1 D2]. unfold lin_seg. replace (length ks - o - 1 - o)%nat with (n - o)%nat by lia.
  destruct (find _ _) as [k|] eqn:E.
  - apply find_some in E as [I T]. apply in_seq in I. apply andb_prop in T as [T T3]. apply andb_prop in T as [T1 T2]. destruct (Rleb_reflect (knot_of ks k) t); [|discriminate]. destruct (Rleb_reflect t (knot_of ks (S k))); [|discriminate]. destruct (Rltb_reflect (knot_of ks k) (knot_of ks (S k))); [|discriminate]. split; [lia|]. split; [split|]; assumption.
  - exfalso. pose proof (find_none _ _ E) as N. cbv beta in N.
    assert (K : forall m, (o <= m <= n)%nat -> knot_of ks m < t \/ (knot_of ks m = t /\ knot_of ks o = t)).
    { intros m. induction m as [|m IH]; intros Hm; [assert (o = 0)%nat by lia; subst o; destruct D1 as [D1|D1]; [left|right]; auto|].
      destruct (Nat.eq_dec o (S m)) as [->|NE]; [destruct D1 as [D1|D1]; [left|right]; auto|].
      specialize (IH ltac:(lia)). pose proof (M m (S m) ltac:(lia)) as UP. specialize (N m ltac:(apply in_seq; lia)).
      destruct (Rleb_reflect (knot_of ks m) t); cbn [andb] in N; [|destruct IH; lra]. destruct (Rleb_reflect t (knot_of ks (S m))); cbn [andb] in N; [|left; lra]. destruct (Rltb_reflect (knot_of ks m) (knot_of ks (S m))); [discriminate|].
      destruct IH as [IH|[IH1 IH2]]; [lra|]. right. split; lra. }
    destruct (K n ltac:(lia)) as [H|[H1 H2]]; lra.
Qed.

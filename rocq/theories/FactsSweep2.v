(** Cylinder, elliptic cylinder, cone, box: closed outward meshes of convex bodies. *)
From Verif Require Import Base Spec SpecGeom SpecFrame SpecBox SpecShape SpecMesh SpecSweep ModelMesh FactsVec FactsAlg FactsElem FactsPH FactsPH4 FactsMesh FactsMesh2 FactsMesh3 FactsMesh4 FactsMesh5 FactsMesh6 FactsSweep.
From Coq Require Import Lia Lra.
Open Scope R_scope.

Definition spread (p q a : vec3) : R := dot (cross p q) a.
Lemma nth_seq {A} (f : nat -> A) n i d : (i < n)%nat -> nth i (map f (seq 0 n)) d = f i.
Proof. intros H. rewrite (nth_indep _ d (f 0%nat)) by (rewrite map_length, seq_length; exact H). rewrite map_nth, seq_nth by exact H. reflexivity. Qed.

(** ** solids between two parallel n-gons *)
Definition prism_verts (c0 c1 p q : vec3) (n : nat) : list vec3 :=
  map (fun i => vadd c0 (on_ellipse p q (part_of_turn n i))) (seq 0 n) ++ map (fun i => vadd c1 (on_ellipse p q (part_of_turn n i))) (seq 0 n).
Lemma prism_low c0 c1 p q n i : (i < n)%nat -> vpos (prism_verts c0 c1 p q n) i = vadd c0 (on_ellipse p q (part_of_turn n i)).
Proof. intros H. unfold vpos, prism_verts. rewrite app_nth1 by (rewrite map_length, seq_length; exact H). apply (nth_seq (fun i => vadd c0 (on_ellipse p q (part_of_turn n i)))). exact H. Qed.
Lemma prism_high c0 c1 p q n i : (i < n)%nat -> vpos (prism_verts c0 c1 p q n) (i + n) = vadd c1 (on_ellipse p q (part_of_turn n i)).
Proof.
  intros H. unfold vpos, prism_verts. rewrite app_nth2 by (rewrite map_length, seq_length; lia). rewrite map_length, seq_length.
  replace (i + n - n)%nat with i by lia. apply (nth_seq (fun i => vadd c1 (on_ellipse p q (part_of_turn n i)))). exact H.
Qed.
Lemma prism_in c0 c1 p q n v : List.In v (prism_verts c0 c1 p q n) -> exists k, (k < n)%nat /\ (v = vadd c0 (on_ellipse p q (part_of_turn n k)) \/ v = vadd c1 (on_ellipse p q (part_of_turn n k))).
Proof.
  unfold prism_verts. intros H. apply in_app_or in H. destruct H as [H|H]; apply in_map_iff in H; destruct H as (k & E & L); apply in_seq in L; exists k; split; try lia; [left|right]; auto.
Qed.
Ltac geo := unfold tri_normal, on_ellipse, spread, orient, turnc; clear; spec_unfold; ring.
Lemma neg_prod a b : 0 < a -> 0 < b -> - (a * b) < 0.
Proof. intros. assert (0 < a * b) by (apply Rmult_lt_0_compat; auto). lra. Qed.
Lemma prism_outward c0 c1 p q n : (3 <= n)%nat -> 0 < spread p q (vsub c1 c0) ->
  outward_convex (prism_verts c0 c1 p q n) (cyl_faces n) (vscale (1 / 2) (vadd c0 c1)).
Proof.
  intros Hn D f F. set (vs := prism_verts c0 c1 p q n).
  assert (LO : forall i, (i < n)%nat -> vpos vs i = vadd c0 (on_ellipse p q (part_of_turn n i))) by (intros; apply prism_low; auto).
  assert (HI : forall i, (i < n)%nat -> vpos vs (i + n) = vadd c1 (on_ellipse p q (part_of_turn n i))) by (intros; apply prism_high; auto).
  assert (IN : forall v, List.In v vs -> exists k, (k < n)%nat /\ (v = vadd c0 (on_ellipse p q (part_of_turn n k)) \/ v = vadd c1 (on_ellipse p q (part_of_turn n k)))) by (intros v; apply prism_in).
  clearbody vs.
  unfold cyl_faces in F. apply in_app_or in F. destruct F as [F|F]; [|apply in_app_or in F; destruct F as [F|F]].
  - apply in_map_iff in F. destruct F as (i & <- & L). apply in_seq in L.
    assert (O : 0 < orient (part_of_turn n 0) (part_of_turn n (i - 1)) (part_of_turn n i)) by (apply ngon_strict; lia).
    unfold behind_face, before_face, face_normal, face_base, corners. rewrite !LO by lia. set (x0 := part_of_turn n 0) in *. set (x1 := part_of_turn n (i - 1)) in *. set (x2 := part_of_turn n i) in *. split.
    + match goal with |- ?e < 0 => replace e with (- (1 / 2 * (orient x0 x1 x2 * spread p q (vsub c1 c0)))) by (unfold tri_normal, on_ellipse, spread, orient; clear; spec_unfold; field) end.
      assert (0 < orient x0 x1 x2 * spread p q (vsub c1 c0)) by (apply Rmult_lt_0_compat; auto). lra.
    + intros v V. apply IN in V. destruct V as (k & Lk & [-> | ->]); set (xk := part_of_turn n k); intros H.
      * match type of H with 0 < ?e => replace e with 0 in H by geo end. lra.
      * match type of H with 0 < ?e => replace e with (- (orient x0 x1 x2 * spread p q (vsub c1 c0))) in H by geo end. pose proof (neg_prod _ _ O D). lra.
  - apply in_flat_map in F. destruct F as (i & L & F). apply in_seq in L. assert (N := prev0_nxt n i ltac:(lia)). cbv zeta in F. set (j := prev0 n i) in *. clearbody j.
    pose proof (nxt_lt _ _ _ N) as [Lj Li]. pose proof (ngon_centre n j i Hn N) as T. pose proof (fun k => ngon_convex n j i k N) as O.
    destruct F as [<-|[<-|[]]]; unfold behind_face, before_face, face_normal, face_base, corners; rewrite ?LO, ?HI by lia; set (xi := part_of_turn n i) in *; set (xj := part_of_turn n j) in *.
    + split.
      * match goal with |- ?e < 0 => replace e with (- (turnc xj xi * spread p q (vsub c1 c0))) by (unfold tri_normal, on_ellipse, spread, turnc; clear; spec_unfold; field) end. apply neg_prod; auto.
      * intros v V. apply IN in V. destruct V as (k & Lk & [-> | ->]); specialize (O k Lk); set (xk := part_of_turn n k) in *; intros H;
        match type of H with 0 < ?e => replace e with (- (orient xj xi xk * spread p q (vsub c1 c0))) in H by geo end;
        assert (0 <= orient xj xi xk * spread p q (vsub c1 c0)) by (apply Rmult_le_pos; lra); lra.
    + split.
      * match goal with |- ?e < 0 => replace e with (- (turnc xj xi * spread p q (vsub c1 c0))) by (unfold tri_normal, on_ellipse, spread, turnc; clear; spec_unfold; field) end. apply neg_prod; auto.
      * intros v V. apply IN in V. destruct V as (k & Lk & [-> | ->]); specialize (O k Lk); set (xk := part_of_turn n k) in *; intros H;
        match type of H with 0 < ?e => replace e with (- (orient xj xi xk * spread p q (vsub c1 c0))) in H by geo end;
        assert (0 <= orient xj xi xk * spread p q (vsub c1 c0)) by (apply Rmult_le_pos; lra); lra.
  - apply in_map_iff in F. destruct F as (i0 & <- & L). apply in_seq in L. assert (exists i, i0 = (i + n)%nat /\ (i < n - 2)%nat) as (i & -> & Li) by (exists (i0 - n)%nat; lia).
    assert (O : 0 < orient (part_of_turn n i) (part_of_turn n (i + 1)) (part_of_turn n (n - 1))) by (apply ngon_strict; lia). rewrite <- orient_cyc in O.
    replace (n * 2 - 1)%nat with (n - 1 + n)%nat by lia. replace (i + n + 1)%nat with (i + 1 + n)%nat by lia.
    unfold behind_face, before_face, face_normal, face_base, corners. rewrite !HI by lia. set (x0 := part_of_turn n (n - 1)) in *. set (x1 := part_of_turn n i) in *. set (x2 := part_of_turn n (i + 1)) in *. split.
    + match goal with |- ?e < 0 => replace e with (- (1 / 2 * (orient x0 x1 x2 * spread p q (vsub c1 c0)))) by (unfold tri_normal, on_ellipse, spread, orient; clear; spec_unfold; field) end.
      assert (0 < orient x0 x1 x2 * spread p q (vsub c1 c0)) by (apply Rmult_lt_0_compat; auto). lra.
    + intros v V. apply IN in V. destruct V as (k & Lk & [-> | ->]); set (xk := part_of_turn n k); intros H.
      * match type of H with 0 < ?e => replace e with (- (orient x0 x1 x2 * spread p q (vsub c1 c0))) in H by geo end. pose proof (neg_prod _ _ O D). lra.
      * match type of H with 0 < ?e => replace e with 0 in H by geo end. lra.
Qed.
Lemma prism_len c0 c1 p q n : length (prism_verts c0 c1 p q n) = (n * 2)%nat.
Proof. unfold prism_verts. rewrite app_length, !map_length, seq_length. lia. Qed.
(** the C code's vertex list *)
Lemma add_map c l : map (zVec3DAdd c) l = map (vadd c) l. Proof. apply map_ext. intros; apply zadd_spec. Qed.
Lemma triple_spread u s t r h : right_triple u s t -> spread (vscale r s) (vscale r t) (vscale h u) = r * r * h.
Proof.
  intros (A & B & C & D & E & F & G). unfold spread.
  replace (dot (cross (vscale r s) (vscale r t)) (vscale h u)) with (r * r * h * dot (cross u s) t) by (clear; spec_unfold; ring).
  rewrite G, C. ring.
Qed.
Lemma cyl_mesh c n : cdiv c = Z.of_nat n -> (3 <= n)%nat -> INR n <= 2147483648 -> 3 * zTOL <= norm (vsub (cc1 c) (cc0 c)) -> 0 < crad c ->
  exists m u s t, zCyl3DToPH c = Some m /\ right_triple u s t /\ vsub (cc1 c) (cc0 c) = vscale (norm (vsub (cc1 c) (cc0 c))) u /\
    closed_mesh (m_nv m) (m_nf m) (m_verts m) (m_faces m) /\ m_nv m = (2 * n)%nat /\
    (forall i, (i < n)%nat -> vpos (m_verts m) i = vadd (cc0 c) (on_ellipse (vscale (crad c) s) (vscale (crad c) t) (part_of_turn n i)) /\
                              vpos (m_verts m) (i + n) = vadd (cc1 c) (on_ellipse (vscale (crad c) s) (vscale (crad c) t) (part_of_turn n i))) /\
    outward_convex (m_verts m) (m_faces m) (vscale (1 / 2) (vadd (cc0 c) (cc1 c))).
Proof.
  intros En Hn Hb Ha Hr. destruct (circle_ok (vsub (cc1 c) (cc0 c)) (crad c) n Ha ltac:(lia) Hb) as (u & s & t & RT & Ax & CP).
  destruct (cyl_faces_ok n Hn) as (L & I & O).
  exists (MS (n * 2) (prism_verts (cc0 c) (cc1 c) (vscale (crad c) s) (vscale (crad c) t) n) ((n - 1) * 4) (cyl_faces n)), u, s, t.
  repeat match goal with |- _ /\ _ => split end; cbn [m_nv m_nf m_verts m_faces].
  - unfold zCyl3DToPH. rewrite En, Nat2Z.id. unfold zCyl3DAxis. rewrite zsub_spec, CP, !add_map, !map_map. reflexivity.
  - exact RT.
  - exact Ax.
  - unfold closed_mesh. rewrite prism_len. auto.
  - lia.
  - intros i Li. split; [apply prism_low|apply prism_high]; exact Li.
  - apply prism_outward; [exact Hn|]. rewrite Ax, (triple_spread u) by exact RT. pose proof zTOL_pos. apply Rmult_lt_0_compat; [apply Rmult_lt_0_compat; auto|lra].
Qed.
Lemma ecyl_mesh c n : ecdiv c = Z.of_nat n -> (3 <= n)%nat ->
  exists m, zECyl3DToPH c = Some m /\ closed_mesh (m_nv m) (m_nf m) (m_verts m) (m_faces m) /\ m_nv m = (2 * n)%nat /\
    (forall i, (i < n)%nat -> vpos (m_verts m) i = vadd (ec0 c) (on_ellipse (vscale (er0 c) (ev0 c)) (vscale (er1 c) (ev1 c)) (part_of_turn n i)) /\
                              vpos (m_verts m) (i + n) = vadd (ec1 c) (on_ellipse (vscale (er0 c) (ev0 c)) (vscale (er1 c) (ev1 c)) (part_of_turn n i))) /\
    (0 < er0 c -> 0 < er1 c -> 0 < dot (cross (ev0 c) (ev1 c)) (vsub (ec1 c) (ec0 c)) ->
     outward_convex (m_verts m) (m_faces m) (vscale (1 / 2) (vadd (ec0 c) (ec1 c)))).
Proof.
  intros En Hn. destruct (cyl_faces_ok n Hn) as (L & I & O).
  exists (MS (n * 2) (prism_verts (ec0 c) (ec1 c) (vscale (er0 c) (ev0 c)) (vscale (er1 c) (ev1 c)) n) ((n - 1) * 4) (cyl_faces n)).
  repeat match goal with |- _ /\ _ => split end; cbn [m_nv m_nf m_verts m_faces].
  - unfold zECyl3DToPH. rewrite En, Nat2Z.id. 
    assert (Z : Rltb (fst (zVec3DNormalizeDRC (zECyl3DAxis c))) 0 = false).
    { apply Rltb_false. unfold zVec3DNormalizeDRC, zVec3DNormalize. destruct (zVec3DIsTiny (zECyl3DAxis c)); cbn [fst]; [lra|]. change (zVec3DNorm (zECyl3DAxis c)) with (norm (zECyl3DAxis c)). apply norm_nonneg. }
    rewrite Z, !add_map, !map_map. unfold prism_verts. do 3 f_equal; apply map_ext; intros i; unfold on_ellipse; change (turn n i) with (part_of_turn n i); rewrite ?zadd_spec, zcat_spec, zmul_spec; clear; apply vec3_ext; spec_unfold; ring.
  - unfold closed_mesh. rewrite prism_len. auto.
  - lia.
  - intros i Li. split; [apply prism_low|apply prism_high]; exact Li.
  - intros R0 R1 D. apply prism_outward; [exact Hn|]. 
    replace (spread (vscale (er0 c) (ev0 c)) (vscale (er1 c) (ev1 c)) (vsub (ec1 c) (ec0 c))) with (er0 c * er1 c * dot (cross (ev0 c) (ev1 c)) (vsub (ec1 c) (ec0 c))) by (unfold spread; clear; spec_unfold; ring).
    apply Rmult_lt_0_compat; [apply Rmult_lt_0_compat|]; auto.
Qed.

(** ** cones over n-gons *)
Definition pyramid_verts (z c p q : vec3) (n : nat) : list vec3 := z :: map (fun i => vadd c (on_ellipse p q (part_of_turn n i))) (seq 0 n).
Lemma pyramid_outward z c p q n : (3 <= n)%nat -> 0 < spread p q (vsub z c) ->
  outward_convex (pyramid_verts z c p q n) (cone_faces n) (vadd (vscale (3 / 4) c) (vscale (1 / 4) z)).
Proof.
  intros Hn D f F. set (vs := pyramid_verts z c p q n).
  assert (V0 : vpos vs 0 = z) by reflexivity.
  assert (VI : forall i, (1 <= i <= n)%nat -> vpos vs i = vadd c (on_ellipse p q (part_of_turn n (i - 1)))).
  { intros i L. unfold vs, pyramid_verts, vpos. destruct i; [lia|]. cbn [nth]. replace (S i - 1)%nat with i by lia. apply (nth_seq (fun i => vadd c (on_ellipse p q (part_of_turn n i)))). lia. }
  assert (IN : forall v, List.In v vs -> v = z \/ exists k, (k < n)%nat /\ v = vadd c (on_ellipse p q (part_of_turn n k))).
  { intros v [H|H]; [left; auto|right]. apply in_map_iff in H. destruct H as (k & E & L). apply in_seq in L. exists k. split; [lia|auto]. }
  clearbody vs. unfold cone_faces in F. apply in_app_or in F. destruct F as [F|F]; apply in_map_iff in F; destruct F as (i & <- & L); apply in_seq in L.
  - assert (N : nxt n (prev1 n i - 1) (i - 1)). { pose proof (prev1_ok n i ltac:(lia)). unfold nxt. lia. }
    assert (Lp : (1 <= prev1 n i <= n)%nat) by (pose proof (prev1_ok n i ltac:(lia)); lia).
    unfold behind_face, before_face, face_normal, face_base, corners. rewrite V0, !VI by lia.
    pose proof (nxt_lt _ _ _ N) as [Lj Li]. pose proof (ngon_centre n _ _ Hn N) as T. pose proof (fun k => ngon_convex n _ _ k N) as O.
    set (xj := part_of_turn n (prev1 n i - 1)) in *. set (xi := part_of_turn n (i - 1)) in *. split.
    + match goal with |- ?e < 0 => replace e with (- (3 / 4 * (turnc xj xi * spread p q (vsub z c)))) by (unfold tri_normal, on_ellipse, spread, turnc; clear; spec_unfold; field) end.
      pose proof (neg_prod _ _ T D). lra.
    + intros v V. apply IN in V. destruct V as [-> |(k & Lk & ->)]; intros H.
      * match type of H with 0 < ?e => replace e with 0 in H by geo end. lra.
      * specialize (O k Lk). set (xk := part_of_turn n k) in *. match type of H with 0 < ?e => replace e with (- (orient xj xi xk * spread p q (vsub z c))) in H by geo end;
        assert (0 <= orient xj xi xk * spread p q (vsub z c)) by (apply Rmult_le_pos; lra); lra.
  - unfold behind_face, before_face, face_normal, face_base, corners. rewrite !VI by lia.
    assert (O : 0 < orient (part_of_turn n (1 - 1)) (part_of_turn n (i - 1 - 1)) (part_of_turn n (i - 1))) by (apply ngon_strict; lia).
    set (x0 := part_of_turn n (1 - 1)) in *. set (x1 := part_of_turn n (i - 1 - 1)) in *. set (x2 := part_of_turn n (i - 1)) in *. split.
    + match goal with |- ?e < 0 => replace e with (- (1 / 4 * (orient x0 x1 x2 * spread p q (vsub z c)))) by (unfold tri_normal, on_ellipse, spread, orient; clear; spec_unfold; field) end.
      pose proof (neg_prod _ _ O D). lra.
    + intros v V. apply IN in V. destruct V as [-> |(k & Lk & ->)]; intros H.
      * match type of H with 0 < ?e => replace e with (- (orient x0 x1 x2 * spread p q (vsub z c))) in H by geo end. pose proof (neg_prod _ _ O D). lra.
      * set (xk := part_of_turn n k) in *. match type of H with 0 < ?e => replace e with 0 in H by geo end. lra.
Qed.
Lemma cone_mesh c n : kdiv c = Z.of_nat n -> (3 <= n)%nat -> INR n <= 2147483648 -> 3 * zTOL <= norm (vsub (kvert c) (kcen c)) -> 0 < krad c ->
  exists m u s t, zCone3DToPH c = Some m /\ right_triple u s t /\ vsub (kvert c) (kcen c) = vscale (norm (vsub (kvert c) (kcen c))) u /\
    closed_mesh (m_nv m) (m_nf m) (m_verts m) (m_faces m) /\ m_nv m = (n + 1)%nat /\
    vpos (m_verts m) 0 = kvert c /\
    (forall i, (i < n)%nat -> vpos (m_verts m) (i + 1) = vadd (kcen c) (on_ellipse (vscale (krad c) s) (vscale (krad c) t) (part_of_turn n i))) /\
    outward_convex (m_verts m) (m_faces m) (vadd (vscale (3 / 4) (kcen c)) (vscale (1 / 4) (kvert c))).
Proof.
  intros En Hn Hb Ha Hr. destruct (circle_ok (vsub (kvert c) (kcen c)) (krad c) n Ha ltac:(lia) Hb) as (u & s & t & RT & Ax & CP).
  destruct (cone_faces_ok n Hn) as (L & I & O).
  exists (MS (n + 1) (pyramid_verts (kvert c) (kcen c) (vscale (krad c) s) (vscale (krad c) t) n) (n * 2 - 2) (cone_faces n)), u, s, t.
  repeat match goal with |- _ /\ _ => split end; cbn [m_nv m_nf m_verts m_faces].
  - unfold zCone3DToPH. rewrite En, Nat2Z.id. unfold zCone3DAxis. rewrite zsub_spec, CP, add_map, map_map. reflexivity.
  - exact RT.
  - exact Ax.
  - unfold closed_mesh. split; [|auto]. unfold pyramid_verts. cbn [length]. rewrite map_length, seq_length. lia.
  - reflexivity.
  - reflexivity.
  - intros i Li. unfold pyramid_verts, vpos. rewrite Nat.add_1_r. cbn [nth]. apply (nth_seq (fun i => vadd (kcen c) (on_ellipse (vscale (krad c) s) (vscale (krad c) t) (part_of_turn n i)))). exact Li.
  - apply pyramid_outward; [exact Hn|]. rewrite Ax, (triple_spread u) by exact RT. pose proof zTOL_pos. apply Rmult_lt_0_compat; [apply Rmult_lt_0_compat; auto|lra].
Qed.

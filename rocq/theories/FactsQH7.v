(** Quickhull: the first simplex, the loop and the resulting polyhedron. *)
From Verif Require Export FactsQH6.
From Verif Require FactsSvd FactsSweep.
From Coq Require Import Lra Lia List Permutation Arith Bool.
Import ListNotations.
Open Scope R_scope.

(** ** the loop *)
Section Run.
Variables (pt : nat -> vec3) (N : nat).
Hypothesis gen : generic pt N.
Hypothesis N4 : (4 <= N)%nat.
Notation o := (ori pt).
Lemma open_first : forall fl m, (forall i, List.In i fl -> exists f, m i = Some f) ->
  (exists i f, first_open m fl = Some (Some i) /\ List.In i fl /\ m i = Some f /\ qop f <> []) \/ (first_open m fl = Some None /\ forall i f, List.In i fl -> m i = Some f -> qop f = []).
Proof.
  induction fl as [|i fl IH]; intros m H; cbn [first_open]; [right; split; [reflexivity|intros i f []]|].
  destruct (H i (or_introl eq_refl)) as (f & E). rewrite E. cbn [obind]. destruct (qop f) as [|x r] eqn:O.
  - destruct (IH m) as [(j & g & Q & J & Ej & NE)|(Q & K)]; [intros j J; apply H; right; exact J| |].
    + left. exists j, g. cbn. auto.
    + right. split; [exact Q|]. intros j g [<-|J] Ej; [rewrite E in Ej; injection Ej as <-; exact O|eauto].
  - left. exists i, f. cbn. rewrite O. split; [reflexivity|]. split; [auto|]. split; [exact E|discriminate].
Qed.
Lemma loop_run : forall fuel q, inv pt N q -> (total (q_mem q) (q_fl q) < fuel)%nat -> exists q', inc_loop pt fuel q = Some q' /\ inv pt N q' /\ forall i f, List.In i (q_fl q') -> q_mem q' i = Some f -> qop f = [].
Proof.
  induction fuel as [|k IH]; intros q H L; [lia|]. cbn [inc_loop]. pose proof (I_mesh _ _ _ H) as M.
  destruct (open_first (q_fl q) (q_mem q)) as [(i & f & -> & I & E & NE)|(-> & K)].
  { intros i I. destruct (M_good _ _ _ _ M i I) as (f & E & _). exists f. exact E. }
  - cbn [obind]. destruct (inc_run pt N gen N4 q i f H I E NE) as (q' & -> & H' & T). cbn [obind]. apply IH; [exact H'|lia].
  - cbn [obind]. exists q. auto.
Qed.
(** ** the first simplex *)
Lemma line_height a b c d : apart4 N a b c d -> 2 * zTOL * (dist (pt b) (pt a) * dist (pt d) (pt a)) < norm (nrm pt a b d).
Proof.
  intros A. pose proof (gen _ _ _ _ A) as G. fold (nrm pt a b c) in G. fold (o a b c d) in G. destruct (gen_nrm pt N gen _ _ _ _ A) as (P & _ & _). pose proof zTOL_pos.
  pose proof (normals_cross pt a b c d) as C. assert (E : norm (nrm pt b a d) = norm (nrm pt a b d)). { replace (nrm pt b a d) with (vscale (-1) (nrm pt a b d)) by (unfold nrm; vring). rewrite FactsSvd.norm_scale. rewrite Rabs_left by lra. lra. }
  assert (K : Rabs (o a b c d) * dist (pt b) (pt a) <= norm (nrm pt a b c) * norm (nrm pt a b d)). { rewrite <- E. eapply Rle_trans; [|apply cross_norm_le]. rewrite C, FactsSvd.norm_scale, Rabs_Ropp. unfold dist. lra. }
  set (n1 := norm (nrm pt a b c)) in *. set (n2 := norm (nrm pt a b d)) in *. set (db := dist (pt b) (pt a)) in *. set (dd := dist (pt d) (pt a)) in *. set (v := Rabs (o a b c d)) in *.
  assert (DB : 2 * zTOL < db). { unfold db. destruct A as (A1 & A2 & _ & _ & A5 & _). apply (gen_dist pt N gen a b N4); auto. }
  assert (DD : 0 <= dd) by apply norm_nonneg.
  assert (Q : 2 * zTOL * n1 * (1 + dd) * db < v * db) by (apply Rmult_lt_compat_r; lra).
  assert (Q2 : 0 < zTOL * n1 * db) by (apply Rmult_lt_0_compat; [apply Rmult_lt_0_compat|]; lra).
  apply (Rmult_lt_reg_l n1); [exact P|]. clear - Q K Q2. lra.
Qed.
Lemma normalize_val v : 2 * zTOL <= norm v -> snd (zVec3DNormalize v v3zero) = vscale (1 / norm v) v /\ snd (zVec3DNormalizeDRC v) = vscale (1 / norm v) v.
Proof. intros H. unfold zVec3DNormalizeDRC, zVec3DNormalize. rewrite (not_tiny_norm v H). split; reflexivity. Qed.
Lemma scale_scale k j v : vscale k (vscale j v) = vscale (k * j) v. Proof. vring. Qed.
Lemma simplex_run : exists v0 v1 v2 v3 pl, zQHSimplexVert pt (seq 0 N) = Solid v0 v1 v2 v3 pl /\ Permutation [v0; v1; v2; v3] [0; 1; 2; 3]%nat /\ pl = seq 4 (N - 4) /\ o v0 v1 v2 v3 < 0.
Proof.
  assert (EN : (seq 0 N = 0 :: 1 :: 2 :: 3 :: seq 4 (N - 4))%nat). { transitivity (seq 0 (4 + (N - 4))); [f_equal; lia|]. rewrite seq_app. reflexivity. } rewrite EN.
  assert (A : apart4 N 0 1 2 3) by (unfold apart4; lia). assert (A' : apart4 N 0 1 3 2) by (unfold apart4; lia). pose proof zTOL_pos as TP.
  pose proof (gen_dist pt N gen 0 1 N4 ltac:(lia) ltac:(lia) ltac:(lia)) as D1. pose proof (gen_dist pt N gen 0 2 N4 ltac:(lia) ltac:(lia) ltac:(lia)) as D2. pose proof (line_height _ _ _ _ A') as LH. destruct (gen_nrm pt N gen _ _ _ _ A) as (P & NZ & HH).
  unfold zQHSimplexVert. cbn [simplex2]. rewrite zsub_spec. rewrite (not_tiny_norm (vsub (pt 1) (pt 0))) by (unfold dist in D1; lra). cbn [simplex3]. rewrite zsub_spec. rewrite (not_tiny_norm (vsub (pt 2) (pt 0))) by (unfold dist in D2; lra).
  rewrite !zsub_spec. rewrite (proj1 (normalize_val (vsub (pt 1) (pt 0)) ltac:(unfold dist in D1; lra))), (proj1 (normalize_val (vsub (pt 2) (pt 0)) ltac:(unfold dist in D2; lra))).
  set (d1 := dist (pt 1) (pt 0)) in *. set (d2 := dist (pt 2) (pt 0)) in *. fold d1 d2. unfold dist in d1, d2. fold d1 d2.
  assert (EC : zVec3DOuterProd (vscale (1 / d1) (vsub (pt 1) (pt 0))) (vscale (1 / d2) (vsub (pt 2) (pt 0))) = vscale (1 / d1 * (1 / d2)) (nrm pt 0 1 2)).
  { change (cross (vscale (1 / d1) (vsub (pt 1) (pt 0))) (vscale (1 / d2) (vsub (pt 2) (pt 0))) = vscale (1 / d1 * (1 / d2)) (nrm pt 0 1 2)). unfold nrm. generalize (1 / d1) (1 / d2). intros. vring. }
  rewrite EC. set (n := nrm pt 0 1 2) in *. set (k := 1 / d1 * (1 / d2)). assert (Kp : 0 < k) by (unfold k; apply Rmult_lt_0_compat; apply Rdiv_lt_0_compat; lra).
  assert (NK : norm (vscale k n) = k * norm n) by (rewrite FactsSvd.norm_scale, Rabs_pos_eq by lra; reflexivity).
  assert (BIG : 2 * zTOL <= norm (vscale k n)). { rewrite NK. apply Rlt_le. apply (Rmult_lt_reg_l (d1 * d2)); [nra|]. replace (d1 * d2 * (k * norm n)) with (norm n) by (unfold k; field; lra). lra. }
  rewrite (not_tiny_norm _ BIG). rewrite (proj2 (normalize_val _ BIG)), NK, scale_scale. replace (1 / (k * norm n) * k) with (1 / norm n) by (field; lra).
  cbn [simplex4]. rewrite !zsub_spec.
  assert (EH : zVec3DInnerProd (vsub (pt 3) (pt 0)) (vscale (1 / norm n) n) = o 0 1 2 3 / norm n). { change (dot (vsub (pt 3) (pt 0)) (vscale (1 / norm n) n) = o 0 1 2 3 / norm n). unfold ori. rewrite vol6_dot. fold (nrm pt 0 1 2). fold n. unfold Rdiv. generalize (/ norm n). intros. spec_unfold. ring. }
  rewrite EH. assert (I : 0 < / norm n) by (apply Rinv_0_lt_compat; exact P).
  assert (TI : zIsTiny (o 0 1 2 3 / norm n) = false). { apply zIsTiny_false. unfold Rdiv. rewrite Rabs_mult, (Rabs_pos_eq (/ norm n)) by lra. unfold Rdiv in HH. lra. }
  rewrite TI. rewrite !app_nil_r. unfold Rdiv. destruct (Rltb_reflect 0 (o 0 1 2 3 * / norm n)) as [Q|Q].
  - exists 1%nat, 0%nat, 2%nat, 3%nat, (seq 4 (N - 4)). split; [reflexivity|]. split; [constructor|]. split; [reflexivity|]. rewrite o_swap. assert (0 < o 0 1 2 3) by (apply (Rmult_lt_reg_r (/ norm n)); lra). lra.
  - exists 0%nat, 1%nat, 2%nat, 3%nat, (seq 4 (N - 4)). split; [reflexivity|]. split; [reflexivity|]. split; [reflexivity|]. destruct (Rtotal_order (o 0 1 2 3) 0) as [K|[K|K]]; [exact K|contradiction|]. exfalso. apply Q. apply Rmult_lt_0_compat; lra.
Qed.
Lemma start_run v0 v1 v2 v3 pl : Permutation [v0; v1; v2; v3] [0; 1; 2; 3]%nat -> pl = seq 4 (N - 4) -> o v0 v1 v2 v3 < 0 ->
  let q := zQHSimplex pt v0 v1 v2 v3 in exists m, zQHFacetAssign pt (q_mem q) (q_fl q) pl = Some m /\ inv pt N (QH m (q_new q) (q_dis q) (q_vl q) (q_fl q)) /\ (total m (q_fl q) <= N - 4)%nat.
Proof.
  intros PM -> O q. assert (B : forall x, List.In x [v0; v1; v2; v3] <-> (x < 4)%nat). { intros x. split; intros X; [apply (Permutation_in _ PM) in X; cbn in X; lia|apply (Permutation_in _ (Permutation_sym PM)); cbn; lia]. }
  assert (ND : NoDup [v0; v1; v2; v3]) by (apply (Permutation_NoDup (Permutation_sym PM)); repeat constructor; cbn; lia).
  assert (L0 : (v0 < 4)%nat) by (apply B; cbn; auto). assert (L1 : (v1 < 4)%nat) by (apply B; cbn; auto). assert (L2 : (v2 < 4)%nat) by (apply B; cbn; auto). assert (L3 : (v3 < 4)%nat) by (apply B; cbn; auto).
  assert (NE : v0 <> v1 /\ v0 <> v2 /\ v0 <> v3 /\ v1 <> v2 /\ v1 <> v3 /\ v2 <> v3). { repeat (apply NoDup_cons_iff in ND; destruct ND as (? & ND)). cbn in *. intuition congruence. } destruct NE as (N1 & N2 & N3 & N5 & N6 & N7).
  assert (FLI : forall i, List.In i (q_fl q) -> (i = 0 \/ i = 1 \/ i = 2 \/ i = 3)%nat) by (cbn; intuition lia).
  assert (O1 : o v0 v3 v1 v2 < 0) by (replace (o v0 v3 v1 v2) with (o v0 v1 v2 v3) by (unfold ori, vol6; clear; spec_unfold; ring); exact O).
  assert (O2 : o v1 v3 v2 v0 < 0) by (replace (o v1 v3 v2 v0) with (o v0 v1 v2 v3) by (unfold ori, vol6; clear; spec_unfold; ring); exact O).
  assert (O3 : o v2 v3 v0 v1 < 0) by (replace (o v2 v3 v0 v1) with (o v0 v1 v2 v3) by (unfold ori, vol6; clear; spec_unfold; ring); exact O).
  assert (LVE : forall v, live (q_mem q) (q_fl q) v <-> (v < 4)%nat).
  { intros v. rewrite <- B. split.
    - intros (i & f & I & E & C). destruct (FLI i I) as [->|[->|[->| ->]]]; cbn in E; injection E as <-; unfold is_corner in C; cbn in C |- *; intuition.
    - intros [<-|[<-|[<-|[<-|[]]]]]; [exists 0%nat|exists 0%nat|exists 0%nat|exists 1%nat]; (eexists; split; [cbn; auto|split; [reflexivity|unfold is_corner; cbn; auto]]). }
  assert (M : mesh pt N (q_mem q) (q_fl q)).
  { constructor.
    - cbn. repeat constructor; cbn; lia.
    - intros i I. destruct (FLI i I) as [->|[->|[->| ->]]]; (eexists; split; [reflexivity|split; [unfold good; cbn; repeat split; auto; lia|intros s S; cases3 s S; reflexivity]]).
    - intros i f s I E S. destruct (FLI i I) as [->|[->|[->| ->]]]; cbn in E; injection E as <-; cases3 s S.
      + exists 2%nat, 1%nat. eexists. split; [cbn; auto|]. split; [lia|]. split; [reflexivity|]. unfold facing, is_corner. cbn. intuition.
      + exists 3%nat, 1%nat. eexists. split; [cbn; auto|]. split; [lia|]. split; [reflexivity|]. unfold facing, is_corner. cbn. intuition.
      + exists 1%nat, 1%nat. eexists. split; [cbn; auto|]. split; [lia|]. split; [reflexivity|]. unfold facing, is_corner. cbn. intuition.
      + exists 2%nat, 2%nat. eexists. split; [cbn; auto|]. split; [lia|]. split; [reflexivity|]. unfold facing, is_corner. cbn. intuition.
      + exists 0%nat, 2%nat. eexists. split; [cbn; auto|]. split; [lia|]. split; [reflexivity|]. unfold facing, is_corner. cbn. intuition.
      + exists 3%nat, 0%nat. eexists. split; [cbn; auto|]. split; [lia|]. split; [reflexivity|]. unfold facing, is_corner. cbn. intuition.
      + exists 3%nat, 2%nat. eexists. split; [cbn; auto|]. split; [lia|]. split; [reflexivity|]. unfold facing, is_corner. cbn. intuition.
      + exists 0%nat, 0%nat. eexists. split; [cbn; auto|]. split; [lia|]. split; [reflexivity|]. unfold facing, is_corner. cbn. intuition.
      + exists 1%nat, 0%nat. eexists. split; [cbn; auto|]. split; [lia|]. split; [reflexivity|]. unfold facing, is_corner. cbn. intuition.
      + exists 1%nat, 2%nat. eexists. split; [cbn; auto|]. split; [lia|]. split; [reflexivity|]. unfold facing, is_corner. cbn. intuition.
      + exists 0%nat, 1%nat. eexists. split; [cbn; auto|]. split; [lia|]. split; [reflexivity|]. unfold facing, is_corner. cbn. intuition.
      + exists 2%nat, 0%nat. eexists. split; [cbn; auto|]. split; [lia|]. split; [reflexivity|]. unfold facing, is_corner. cbn. intuition.
    - intros i j f g s t I J E Eg S T A C. destruct (FLI i I) as [->|[->|[->| ->]]], (FLI j J) as [->|[->|[->| ->]]]; cbn in E; injection E as <-; cbn in Eg; injection Eg as <-; try reflexivity; exfalso; cases3 s S; cases3 t T; cbn in A, C; congruence.
    - intros i f x I E L C. apply LVE, B in L. destruct (FLI i I) as [->|[->|[->| ->]]]; cbn in E; injection E as <-; unfold is_corner in C; unfold above; cbn in C |- *; destruct L as [<-|[<-|[<-|[<-|[]]]]]; try assumption; exfalso; intuition. }
  destruct (assign_all pt N gen N4 (q_fl q) (q_mem q) (seq 4 (N - 4))) as (m & Y1 & Y2 & Y3 & Y4 & Y5).
  { apply (M_nodup _ _ _ _ M). } { intros i I. destruct (M_good _ _ _ _ M i I) as (f & E & G & _). exists f. auto. }
  { intros i f x I E X. apply in_seq in X. split; [lia|]. left. intros C. assert (x < 4)%nat by (apply LVE; exists i, f; auto). lia. }
  exists m. split; [exact Y1|]. destruct (mesh_ext pt N (q_mem q) m (q_fl q)) as (M' & LV'). { intros i f I E. destruct (Y3 i f I E) as (f' & E' & (A1 & A2 & A3 & A4 & _) & _). exists f'. auto. } { exact M. }
  assert (BK : forall i f', List.In i (q_fl q) -> m i = Some f' -> exists f, q_mem q i = Some f /\ alike_facet f f' /\ forall x, List.In x (qop f') -> List.In x (qop f) \/ List.In x (seq 4 (N - 4)) /\ 0 < above pt f x).
  { intros i f' I E. destruct (M_good _ _ _ _ M i I) as (f & Ef & _). destruct (Y3 i f I Ef) as (f2 & E2 & A & X). rewrite E in E2. injection E2 as <-. exists f. auto. }
  assert (SP : forall x, (x < 4)%nat -> spanned pt (live m (q_fl q)) (pt x)) by (intros x X; apply spanned_in, LV', LVE; exact X).
  split; [|].
  - constructor; cbn [q_mem q_new q_dis q_vl q_fl].
    + exact M'.
    + intros i I. cbn. destruct (FLI i I) as [->|[->|[->| ->]]]; lia.
    + intros i f I E. destruct (BK i f I E) as (f0 & E0 & (A1 & A2 & A3 & A4 & A5 & A6) & _). rewrite A5, A6. destruct (FLI i I) as [->|[->|[->| ->]]]; cbn in E0; injection E0 as <-; split; reflexivity.
    + intros i f x I E X. destruct (BK i f I E) as (f0 & E0 & (A1 & _) & K). destruct (K x X) as [Q|(Q & Q')].
      * exfalso. destruct (FLI i I) as [->|[->|[->| ->]]]; cbn in E0; injection E0 as <-; destruct Q.
      * apply in_seq in Q. split; [lia|]. unfold above in *. rewrite A1. exact Q'.
    + intros x X. destruct (le_lt_dec 4 x) as [G|G]; [|left; auto]. assert (XI : List.In x (seq 4 (N - 4))) by (apply in_seq; lia). destruct (Y4 x XI) as [(i & f & I & E & ->)|[(i & f & I & E & K)|K]].
      * left. apply spanned_in, LV'. exists i, f. unfold is_corner. auto.
      * right. exists i, f. auto.
      * left. apply (spanned_tetra pt _ v0 v1 v2 v3); try (apply LV', LVE; assumption).
        pose proof (K 0%nat _ ltac:(cbn; auto) eq_refl) as K0. pose proof (K 1%nat _ ltac:(cbn; auto) eq_refl) as K1. pose proof (K 2%nat _ ltac:(cbn; auto) eq_refl) as K2. pose proof (K 3%nat _ ltac:(cbn; auto) eq_refl) as K3.
        unfold above, ori in K0, K1, K2, K3. cbn in K0, K1, K2, K3. unfold ori in O. apply tetra_inside; lra.
    + intros v L. apply LV', LVE, B in L. exact L.
    + intros v V. apply B in V. split; [lia|]. split; [auto|]. split; [intros _; apply LV', LVE; exact V|reflexivity].
    + exact ND.
    + intros v V. discriminate.
    + discriminate.
    + intros x K. apply (spanned_tetra pt _ v0 v1 v2 v3); try (apply LV', LVE; assumption).
      assert (KB : forall i f, List.In i (q_fl q) -> q_mem q i = Some f -> vol6 (pt (qp f 0)) (pt (qp f 1)) (pt (qp f 2)) x <= 0) by (intros i f I E; destruct (Y3 i f I E) as (f' & E' & (A1 & _) & _); rewrite <- A1; apply (K i f' I E')).
      pose proof (KB 0%nat _ ltac:(cbn; auto) eq_refl) as K0. pose proof (KB 1%nat _ ltac:(cbn; auto) eq_refl) as K1. pose proof (KB 2%nat _ ltac:(cbn; auto) eq_refl) as K2. pose proof (KB 3%nat _ ltac:(cbn; auto) eq_refl) as K3.
      cbn in K0, K1, K2, K3. unfold ori in O. apply tetra_inside; lra.
  - assert (T0 : total (q_mem q) (q_fl q) = 0%nat) by reflexivity. rewrite T0, seq_length in Y5. exact Y5.
Qed.
(** ** the polyhedron *)
Lemma index_in : forall l v, List.In v l -> exists k, index_of v l = Some k /\ nth_error l k = Some v.
Proof.
  induction l as [|a l IH]; intros v H; [destruct H|]. cbn [index_of]. destruct (Nat.eqb_spec a v) as [->|NE]; [exists 0%nat; split; reflexivity|]. destruct H as [H|H]; [contradiction|]. destruct (IH v H) as (k & -> & E). exists (Datatypes.S k). split; [reflexivity|exact E].
Qed.
End Run.
Definition ix (l : list nat) (v : nat) : nat := match index_of v l with Some k => k | None => 0%nat end.
Lemma ix_nth l v : List.In v l -> nth_error l (ix l v) = Some v.
Proof. intros H. unfold ix. destruct (index_in l v H) as (k & -> & E). exact E. Qed.
Lemma ix_inj l u v : List.In u l -> List.In v l -> ix l u = ix l v -> u = v.
Proof. intros U V E. apply ix_nth in U, V. rewrite E in U. congruence. Qed.

Definition v3_eq_dec (p q : vec3) : {p = q} + {p <> q}.
Proof. destruct (Req_EM_T (vx p) (vx q)), (Req_EM_T (vy p) (vy q)), (Req_EM_T (vz p) (vz q)); [left; apply vec3_ext; assumption|..]; right; intros ->; contradiction. Defined.
Definition spin (l : list nat) : list (nat * nat) := flat_map (fun i => [(i, 2%nat); (i, 0%nat); (i, 1%nat)]) l.
Lemma spin_darts l : Permutation (spin l) (darts l).
Proof. unfold spin, darts. induction l as [|i l IH]; cbn; [constructor|]. transitivity ([(i, 2%nat); (i, 0%nat); (i, 1%nat)] ++ flat_map (fun i => [(i, 0%nat); (i, 1%nat); (i, 2%nat)]) l); [apply (Permutation_app_head [(i, 2%nat); (i, 0%nat); (i, 1%nat)] IH)|]. cbn. transitivity ((i, 0%nat) :: (i, 2%nat) :: (i, 1%nat) :: flat_map (fun i => [(i, 0%nat); (i, 1%nat); (i, 2%nat)]) l); [apply perm_swap|]. constructor. apply perm_swap. Qed.
Section Final.
Variables (pt : nat -> vec3) (N : nat).
Hypothesis gen : generic pt N.
Hypothesis N4 : (4 <= N)%nat.
Variable q : qhull.
Hypothesis H : inv pt N q.
Hypothesis done : forall i f, List.In i (q_fl q) -> q_mem q i = Some f -> qop f = [].
Notation m := (q_mem q).
Notation fl := (q_fl q).
Let vl := q_vl (zQHDiscard q).
Lemma kept v : List.In v vl <-> live m fl v.
Proof.
  unfold vl, zQHDiscard. cbn [q_vl]. rewrite filter_In. split.
  - intros (V & D). destruct (I_vl _ _ _ H v V) as (_ & _ & K). apply K. destruct (q_dis q v); [discriminate|reflexivity].
  - intros L. pose proof (I_live _ _ _ H v L) as V. split; [exact V|]. destruct (I_vl _ _ _ H v V) as (_ & _ & K). rewrite (proj2 K L). reflexivity.
Qed.
Lemma kept_nd : NoDup vl.
Proof. apply NoDup_filter, (I_vlnd _ _ _ H). Qed.
Lemma kept_lt v : List.In v vl -> (v < N)%nat.
Proof. intros V. apply kept in V. destruct (I_vl _ _ _ H v (I_live _ _ _ H v V)) as (K & _). exact K. Qed.
Lemma kept_corner i f s : List.In i fl -> m i = Some f -> (s < 3)%nat -> List.In (qp f s) vl.
Proof. intros I E S. apply kept. exists i, f. split; [exact I|]. split; [exact E|]. apply corner_at. exact S. Qed.
Definition face_of (i : nat) : face := match m i with Some f => FC (ix vl (qp f 0)) (ix vl (qp f 1)) (ix vl (qp f 2)) (qn f) | None => FC 0 0 0 v3zero end.
Lemma to_ph : zQH2PH3D pt (zQHDiscard q) = Some (PH (map pt vl) (map face_of fl)).
Proof.
  unfold zQH2PH3D. fold vl. cbn [q_mem q_fl zQHDiscard]. rewrite (FactsSweep.mapM_some _ face_of); [reflexivity|].
  intros i I. destruct (M_good _ _ _ _ (I_mesh _ _ _ H) i I) as (f & E & _). unfold face_of. rewrite E. cbn [obind].
  unfold ix. destruct (index_in vl _ (kept_corner i f 0 I E ltac:(lia))) as (a & -> & _). destruct (index_in vl _ (kept_corner i f 1 I E ltac:(lia))) as (b & -> & _). destruct (index_in vl _ (kept_corner i f 2 I E ltac:(lia))) as (c & -> & _). reflexivity.
Qed.
Lemma vpos_ix v : List.In v vl -> vpos (map pt vl) (ix vl v) = pt v.
Proof. intros V. apply ix_nth in V. unfold vpos. apply nth_error_nth. apply map_nth_error. exact V. Qed.
Lemma ix_lt v : List.In v vl -> (ix vl v < length (map pt vl))%nat.
Proof. intros V. apply ix_nth in V. rewrite map_length. apply nth_error_Some. rewrite V. discriminate. Qed.
Definition tri_of (i : nat) : nat * nat * nat * vec3 := let f := face_of i in (fi0 f, fi1 f, fi2 f, fnrm f).
Definition gside (d : nat * nat) : nat * nat := (ix vl (dsrc m d), ix vl (ddst m d)).
Lemma sides_spin : forall l, incl l fl -> all_sides (map fst (map tri_of l)) = map gside (spin l).
Proof.
  induction l as [|i l IH]; intros L; [reflexivity|]. change (sides (fst (tri_of i)) ++ all_sides (map fst (map tri_of l)) = map gside ([(i, 2%nat); (i, 0%nat); (i, 1%nat)] ++ spin l)). rewrite map_app, <- IH by (intros x X; apply L; right; exact X). f_equal.
  destruct (M_good _ _ _ _ (I_mesh _ _ _ H) i (L i (or_introl eq_refl))) as (f & E & _). unfold tri_of, face_of, gside, dsrc, ddst. cbn [map fst snd]. rewrite E. reflexivity.
Qed.
Lemma dart_kept i s f : List.In i fl -> m i = Some f -> (s < 3)%nat -> List.In (dsrc m (i, s)) vl /\ List.In (ddst m (i, s)) vl.
Proof. intros I E S. unfold dsrc, ddst. cbn [fst snd]. rewrite E. split; apply (kept_corner i f); auto; [apply nxt_lt|apply prv_lt]. Qed.
Lemma result_oriented : oriented (map fst (map tri_of fl)).
Proof.
  pose proof (I_mesh _ _ _ H) as M. split.
  - unfold closed. rewrite (sides_spin fl (incl_refl fl)).
    assert (PD : Permutation (map gside (spin fl)) (map gside (darts fl))) by (apply Permutation_map, spin_darts).
    etransitivity; [exact PD|]. etransitivity; [|apply Permutation_map, Permutation_sym; exact PD]. rewrite map_map.
    assert (PM : Permutation (map (mate m) (darts fl)) (darts fl)).
    { assert (MV : forall d, List.In d (darts fl) -> List.In (mate m d) (darts fl) /\ mate m (mate m d) = d).
      { intros [i s] D. apply in_darts in D. destruct D as (I & S). destruct (M_good _ _ _ _ M i I) as (f & E & _). pose proof (mate_mate pt N m fl M i s f I E S) as MM. destruct (mate_spec pt N m fl M i s f I E S) as (j & t & g & Em & J & Ej & T & F). rewrite Em in *. split; [apply in_darts; auto|exact MM]. }
      apply NoDup_Permutation.
      - apply nodup_map_in; [|apply nodup_darts, (M_nodup _ _ _ _ M)]. intros a b A B Eab. destruct (MV a A) as (_ & Ea), (MV b B) as (_ & Eb). rewrite <- Ea, <- Eb, Eab. reflexivity.
      - apply nodup_darts, (M_nodup _ _ _ _ M).
      - intros d. rewrite in_map_iff. split; [intros (a & <- & A); apply (MV a A)|]. intros D. exists (mate m d). destruct (MV d D) as (A & B). auto. }
    etransitivity; [apply Permutation_map, Permutation_sym; exact PM|]. rewrite map_map. apply Permutation_refl' , map_ext_in. intros [i s] D. apply in_darts in D. destruct D as (I & S).
    destruct (M_good _ _ _ _ M i I) as (f & E & _). destruct (mate_spec pt N m fl M i s f I E S) as (j & t & g & -> & J & Ej & T & (_ & _ & F1 & F2 & _)).
    unfold gside, opp, dsrc, ddst. cbn [fst snd]. rewrite E, Ej, F1, F2. reflexivity.
  - rewrite (sides_spin fl (incl_refl fl)). apply nodup_map_in; [|apply (Permutation_NoDup (Permutation_sym (spin_darts fl))), nodup_darts, (M_nodup _ _ _ _ M)].
    intros [i s] [j t] A B E. apply (Permutation_in _ (spin_darts fl)) in A, B. apply in_darts in A, B. destruct A as (I & S), B as (J & T). destruct (M_good _ _ _ _ M i I) as (f & Ei & G & _). destruct (M_good _ _ _ _ M j J) as (g & Ej & _).
    destruct (dart_kept i s f I Ei S) as (K1 & K2). destruct (dart_kept j t g J Ej T) as (K3 & K4). unfold gside in E. injection E as E1 E2. apply ix_inj in E1, E2; auto. unfold dsrc, ddst in E1, E2. cbn [fst snd] in E1, E2. rewrite Ei, Ej in E1, E2.
    pose proof (M_edge _ _ _ _ M i j f g s t I J Ei Ej S T E1 E2) as <-. rewrite Ei in Ej. injection Ej as <-. f_equal. apply (good_inj pt N f (nxt s) (nxt t) G (nxt_lt s) (nxt_lt t)) in E1. cases3 s S; cases3 t T; cbn in E1; try reflexivity; discriminate.
Qed.
Lemma hull_le n a k : forall L, (forall v, List.In v L -> dot n (vsub v a) <= k) -> forall x, convex_hull L x -> dot n (vsub x a) <= k.
Proof.
  intros L HL x C. induction C as [p P|u v p _ IHu _ IHv (s0 & s1 & (W0 & W1 & W2) & ->)]; [auto|].
  replace (dot n (vsub (comb2 s0 s1 u v) a)) with (s0 * dot n (vsub u a) + s1 * dot n (vsub v a)) by (replace s1 with (1 - s0) by lra; unfold comb2; clear; spec_unfold; ring). nra.
Qed.
Lemma all_spanned x : (x < N)%nat -> spanned pt (live m fl) (pt x).
Proof. intros X. destruct (I_cover _ _ _ H x X) as [K|(i & f & I & E & K)]; [exact K|]. rewrite (done i f I E) in K. destruct K. Qed.
Lemma above_le i f x : List.In i fl -> m i = Some f -> (x < N)%nat -> ~ is_corner f x -> above pt f x < 0.
Proof.
  intros I E X C. destruct (all_spanned x X) as (L & HL & K). destruct (mesh_get pt N m fl (I_mesh _ _ _ H) i f I E) as (G & _).
  assert (LE : above pt f x <= 0).
  { unfold above, ori. rewrite vol6_dot. fold (nrm pt (qp f 0) (qp f 1) (qp f 2)). apply (hull_le _ _ 0 (map pt L)); [|exact K].
    intros v V. apply in_map_iff in V. destruct V as (u & <- & U). unfold nrm. rewrite <- vol6_dot. fold (ori pt (qp f 0) (qp f 1) (qp f 2) u). fold (above pt f u).
    destruct (Nat.eq_dec u (qp f 0)) as [->|N0]; [unfold above, ori, vol6; clear; spec_unfold; lra|]. destruct (Nat.eq_dec u (qp f 1)) as [->|N1]; [unfold above, ori, vol6; clear; spec_unfold; lra|]. destruct (Nat.eq_dec u (qp f 2)) as [->|N2]; [unfold above, ori, vol6; clear; spec_unfold; lra|].
    apply Rlt_le, (M_sup _ _ _ _ (I_mesh _ _ _ H) i f u I E (HL u U)). unfold is_corner. intuition. }
  destruct G as (G0 & G1 & G2 & D1 & D2 & D3 & _). assert (A : apart4 N (qp f 0) (qp f 1) (qp f 2) x) by (unfold is_corner in C; unfold apart4; intuition congruence).
  destruct (gen_nrm pt N gen _ _ _ _ A) as (_ & NZ & _). unfold above in *. lra.
Qed.
Lemma facet_outward i f : List.In i fl -> m i = Some f -> outward_face (map pt (seq 0 N)) (map pt vl) (ix vl (qp f 0)) (ix vl (qp f 1)) (ix vl (qp f 2)) (qn f).
Proof.
  intros I E. destruct (mesh_get pt N m fl (I_mesh _ _ _ H) i f I E) as (G & _). pose proof G as (G0 & G1 & G2 & D1 & D2 & D3 & Q).
  unfold outward_face. rewrite (vpos_ix _ (kept_corner i f 0 I E ltac:(lia))), (vpos_ix _ (kept_corner i f 1 I E ltac:(lia))), (vpos_ix _ (kept_corner i f 2 I E ltac:(lia))).
  assert (EX : exists d, apart4 N (qp f 0) (qp f 1) (qp f 2) d).
  { assert (K : exists d, (d < 4)%nat /\ d <> qp f 0 /\ d <> qp f 1 /\ d <> qp f 2). { clear - D1. destruct (Nat.eq_dec 0 (qp f 0)); [|destruct (Nat.eq_dec 0 (qp f 1)); [|destruct (Nat.eq_dec 0 (qp f 2)); [|exists 0%nat; lia]]]; (destruct (Nat.eq_dec 1 (qp f 0)); [|destruct (Nat.eq_dec 1 (qp f 1)); [|destruct (Nat.eq_dec 1 (qp f 2)); [|exists 1%nat; lia]]]; (destruct (Nat.eq_dec 2 (qp f 0)); [|destruct (Nat.eq_dec 2 (qp f 1)); [|destruct (Nat.eq_dec 2 (qp f 2)); [|exists 2%nat; lia]]]; try lia; exists 3%nat; lia)). }
    destruct K as (d & K). exists d. unfold apart4. lia. }
  destruct EX as (d & A). destruct (gen_nrm pt N gen _ _ _ _ A) as (P & _ & _). set (n := nrm pt (qp f 0) (qp f 1) (qp f 2)) in *. assert (IP : 0 < / norm n) by (apply Rinv_0_lt_compat; exact P).
  assert (DN : forall v, dot (qn f) v = / norm n * dot n v) by (intros v; rewrite Q; unfold Rdiv; generalize (/ norm n); intros; spec_unfold; ring).
  split; [rewrite Q; apply unit_scale; exact P|]. rewrite !DN. split; [replace (dot n (vsub (pt (qp f 1)) (pt (qp f 0)))) with 0 by (unfold n, nrm; clear; spec_unfold; ring); ring|]. split; [replace (dot n (vsub (pt (qp f 2)) (pt (qp f 0)))) with 0 by (unfold n, nrm; clear; spec_unfold; ring); ring|].
  split. { fold (nrm pt (qp f 0) (qp f 1) (qp f 2)). fold n. apply Rmult_lt_0_compat; [exact IP|]. rewrite <- norm_sqr. apply Rmult_lt_0_compat; exact P. }
  intros x X X0 X1 X2. apply in_map_iff in X. destruct X as (u & <- & U). apply in_seq in U. assert (AB : above pt f u < 0) by (apply (above_le i f u I E); [lia|]; unfold is_corner; intuition congruence).
  rewrite DN. unfold above, ori in AB. rewrite vol6_dot in AB. fold (nrm pt (qp f 0) (qp f 1) (qp f 2)) in AB. fold n in AB. clear - AB IP. nra.
Qed.
Lemma final_surface : hull_surface (map pt (seq 0 N)) (map pt vl) (map tri_of fl).
Proof.
  pose proof (I_mesh _ _ _ H) as M. assert (IJ : forall u v, (u < N)%nat -> (v < N)%nat -> pt u = pt v -> u = v). { intros u v U V E. destruct (Nat.eq_dec u v) as [?|NE]; [assumption|]. pose proof (gen_dist pt N gen u v N4 U V NE) as D. rewrite E in D. unfold dist in D. replace (vsub (pt v) (pt v)) with v3zero in D by (clear; vring). pose proof zTOL_pos. rewrite (proj2 (norm_zero_iff v3zero)) in D by reflexivity. lra. }
  split; [apply nodup_map_in; [intros u v U V; apply IJ; apply kept_lt; assumption|exact kept_nd]|].
  split. { intros v V. apply in_map_iff in V. destruct V as (u & <- & U). apply in_map, in_seq. pose proof (kept_lt u U). lia. }
  split. { apply Forall_forall. intros t T. apply in_map_iff in T. destruct T as (t' & <- & T). apply in_map_iff in T. destruct T as (i & <- & I). destruct (M_good _ _ _ _ M i I) as (f & E & G & _). unfold tri_of, face_of. rewrite E. cbn [fst fi0 fi1 fi2]. repeat split; apply ix_lt; apply (kept_corner i f); auto. }
  split. { apply Forall_forall. intros t T. apply in_map_iff in T. destruct T as (t' & <- & T). apply in_map_iff in T. destruct T as (i & <- & I). destruct (M_good _ _ _ _ M i I) as (f & E & (_ & _ & _ & D1 & D2 & D3 & _) & _). unfold tri_of, face_of. rewrite E. cbn [fst fi0 fi1 fi2].
    repeat split; intros Q; apply ix_inj in Q; try (apply (kept_corner i f); auto; lia); congruence. }
  split; [exact result_oriented|].
  split. { intros k K. rewrite map_length in K. destruct (nth_error vl k) as [v|] eqn:EK; [|apply nth_error_None in EK; lia]. pose proof (nth_error_In _ _ EK) as V. pose proof (proj1 (kept v) V) as (i & f & I & E & C).
    assert (KI : k = ix vl v). { apply (proj1 (NoDup_nth_error vl) kept_nd); [exact K|]. rewrite EK. symmetry. apply ix_nth. exact V. }
    exists (ix vl (qp f 0)), (ix vl (qp f 1)), (ix vl (qp f 2)). split; [apply in_map_iff; exists (tri_of i); split; [unfold tri_of, face_of; rewrite E; reflexivity|apply in_map; exact I]|]. rewrite KI. unfold is_corner in C. intuition (subst v; auto). }
  split. { intros a b c n T. apply in_map_iff in T. destruct T as (i & T & I). destruct (M_good _ _ _ _ M i I) as (f & E & _). unfold tri_of, face_of in T. rewrite E in T. cbn [fi0 fi1 fi2 fnrm] in T. injection T as <- <- <- <-. apply (facet_outward i f I E). }
  assert (SH : forall x, spanned pt (live m fl) x -> convex_hull (map pt vl) x). { intros x (L & HL & K). induction K as [p P|a b p _ IHa _ IHb S]; [|apply (hull_mix _ a b); assumption]. apply hull_point. apply in_map_iff in P. destruct P as (v & <- & V). apply in_map. apply kept, HL, V. }
  split. { intros x X. apply in_map_iff in X. destruct X as (u & <- & U). apply in_seq in U. apply SH, all_spanned. lia. }
  intros x. split.
  - intros C a b c n T. apply in_map_iff in T. destruct T as (i & T & I). destruct (M_good _ _ _ _ M i I) as (f & E & _). unfold tri_of, face_of in T. rewrite E in T. cbn [fi0 fi1 fi2 fnrm] in T. injection T as <- <- <- <-. destruct (facet_outward i f I E) as (_ & F1 & F2 & _ & F4).
    apply (hull_le _ _ 0 (map pt vl)); [|exact C]. intros v V. destruct (in_map_iff pt vl v) as (V' & _). destruct (V' V) as (u & <- & U). assert (XI : List.In (pt u) (map pt (seq 0 N))) by (apply in_map, in_seq; pose proof (kept_lt u U); lia).
    destruct (v3_eq_dec (pt u) (vpos (map pt vl) (ix vl (qp f 0)))) as [->|E0]; [clear; spec_unfold; lra|]. destruct (v3_eq_dec (pt u) (vpos (map pt vl) (ix vl (qp f 1)))) as [->|E1]; [lra|]. destruct (v3_eq_dec (pt u) (vpos (map pt vl) (ix vl (qp f 2)))) as [->|E2]; [lra|]. apply Rlt_le, F4; assumption.
  - intros K. apply SH, (I_full _ _ _ H). intros i f I E. specialize (K (ix vl (qp f 0)) (ix vl (qp f 1)) (ix vl (qp f 2)) (qn f)). assert (T : List.In (ix vl (qp f 0), ix vl (qp f 1), ix vl (qp f 2), qn f) (map tri_of fl)) by (apply in_map_iff; exists i; split; [unfold tri_of, face_of; rewrite E; reflexivity|exact I]). specialize (K T).
    rewrite (vpos_ix _ (kept_corner i f 0 I E ltac:(lia))) in K. destruct (mesh_get pt N m fl M i f I E) as (G & _). pose proof (facet_outward i f I E) as (UN & _). destruct G as (_ & _ & _ & _ & _ & _ & Q). rewrite vol6_dot. fold (nrm pt (qp f 0) (qp f 1) (qp f 2)). set (n := nrm pt (qp f 0) (qp f 1) (qp f 2)) in *.
    assert (P : 0 < norm n). { destruct (norm_nonneg n) as [P|P]; [exact P|]. exfalso. symmetry in P. apply norm_zero_iff in P. rewrite Q, P in UN. replace (vscale (1 / norm v3zero) v3zero) with v3zero in UN by (generalize (1 / norm v3zero); intros; vring). rewrite (proj2 (norm_zero_iff v3zero)) in UN by reflexivity. lra. }
    assert (DN : dot (qn f) (vsub x (pt (qp f 0))) = / norm n * dot n (vsub x (pt (qp f 0)))) by (rewrite Q; unfold Rdiv; generalize (/ norm n); intros; clear; spec_unfold; ring). rewrite DN in K. assert (IP : 0 < / norm n) by (apply Rinv_0_lt_compat; exact P). clear - K IP. nra.
Qed.
End Final.
(** faces of a polyhedron with their normals *)
Definition norm_faces (ph : ph3) : list (nat * nat * nat * vec3) := map (fun f => (fi0 f, fi1 f, fi2 f, fnrm f)) (pfaces ph).
Lemma nth_seq_all (l : list vec3) : map (fun i => nth i l v3zero) (seq 0 (length l)) = l.
Proof.
  apply (nth_ext _ _ v3zero v3zero); rewrite map_length, seq_length; [reflexivity|]. intros i L. rewrite (nth_indep _ v3zero ((fun i => nth i l v3zero) 0%nat)) by (rewrite map_length, seq_length; exact L). rewrite (map_nth (fun i => nth i l v3zero)), seq_nth by exact L. reflexivity.
Qed.
Lemma quickhull_correct sort fuel data : general_position data -> (4 <= length data)%nat -> (length data <= fuel)%nat ->
  exists ch, zVec3DDataConvexHull sort fuel data = Some (Some ch) /\ hull_surface data (pverts ch) (norm_faces ch).
Proof.
  intros G N4 F. pose proof (general_generic data G) as gen. set (pt := fun i => nth i data v3zero) in *. set (N := length data) in *.
  unfold zVec3DDataConvexHull. fold pt. fold N. unfold zQHCreate. destruct (simplex_run pt N gen N4) as (v0 & v1 & v2 & v3 & pl & -> & PM & PL & O).
  destruct (start_run pt N gen N4 v0 v1 v2 v3 pl PM PL O) as (m & -> & I & T). cbn [obind].
  destruct (loop_run pt N gen N4 fuel _ I) as (q & -> & I' & D). { cbn [q_mem q_fl] in *. lia. } cbn [obind]. rewrite (to_ph pt N N4 q I'). cbn [obind]. eexists. split; [reflexivity|].
  cbn [pverts pfaces]. unfold norm_faces. cbn [pfaces]. rewrite map_map. pose proof (final_surface pt N gen N4 q I' D) as K. unfold pt, N in K. rewrite nth_seq_all in K. exact K.
Qed.

(** ** the vertices are the extreme points *)
Lemma hull_face l vs a b c n L x : outward_face l vs a b c n -> (forall v, List.In v L -> List.In v l /\ v <> vpos vs a) -> convex_hull L x ->
  dot n (vsub x (vpos vs a)) <= 0 /\ (dot n (vsub x (vpos vs a)) = 0 -> segment (vpos vs b) (vpos vs c) x).
Proof.
  intros (_ & D1 & D2 & _ & B) HL C. induction C as [p P|u v p _ (U1 & U2) _ (V1 & V2) (s0 & s1 & (W0 & W1 & W2) & ->)].
  - destruct (HL p P) as (P1 & P2). destruct (v3_eq_dec p (vpos vs b)) as [->|NB]; [|destruct (v3_eq_dec p (vpos vs c)) as [->|NC]].
    + split; [lra|]. intros _. exists 1, 0. split; [unfold weights2; lra|unfold comb2; vring].
    + split; [lra|]. intros _. exists 0, 1. split; [unfold weights2; lra|unfold comb2; vring].
    + pose proof (B p P1 P2 NB NC). split; [lra|]. intros K. lra.
  - assert (E : dot n (vsub (comb2 s0 s1 u v) (vpos vs a)) = s0 * dot n (vsub u (vpos vs a)) + s1 * dot n (vsub v (vpos vs a))) by (replace s1 with (1 - s0) by lra; unfold comb2; clear; spec_unfold; ring).
    rewrite E. split; [nra|]. intros K. destruct (Req_dec s0 0) as [Z|Z].
    + assert (s1 = 1) by lra. subst s0 s1. replace (comb2 0 1 u v) with v by (unfold comb2; vring). apply V2. lra.
    + destruct (Req_dec s1 0) as [Z1|Z1].
      * assert (s0 = 1) by lra. subst s1 s0. replace (comb2 1 0 u v) with u by (unfold comb2; vring). apply U2. lra.
      * destruct U2 as (a0 & a1 & (A0 & A1 & A2) & ->); [nra|]. destruct V2 as (b0 & b1 & (B0 & B1 & B2) & ->); [nra|].
        exists (s0 * a0 + s1 * b0), (s0 * a1 + s1 * b1). split; [unfold weights2; repeat split; nra|unfold comb2; vring].
Qed.
Lemma face_turn l vs a b c n : outward_face l vs a b c n -> outward_face l vs b c a n.
Proof.
  intros (U & D1 & D2 & P & B). unfold outward_face. generalize dependent (vpos vs a). generalize (vpos vs b) (vpos vs c). intros q r p D1 D2 P B. split; [exact U|].
  replace (dot n (vsub r q)) with (dot n (vsub r p) - dot n (vsub q p)) by (clear; spec_unfold; ring). replace (dot n (vsub p q)) with (- dot n (vsub q p)) by (clear; spec_unfold; ring).
  replace (cross (vsub r q) (vsub p q)) with (cross (vsub q p) (vsub r p)) by (clear; vring).
  repeat split; try lra. intros x X X0 X1 X2. specialize (B x X X2 X0 X1). replace (dot n (vsub x q)) with (dot n (vsub x p) - dot n (vsub q p)) by (clear; spec_unfold; ring). lra.
Qed.
Lemma face_corner l vs a b c n : outward_face l vs a b c n -> ~ convex_hull (filter (fun y => if v3_eq_dec y (vpos vs a) then false else true) l) (vpos vs a).
Proof.
  intros F C. pose proof (fun Q => hull_face l vs a b c n _ _ F Q C) as K0. destruct K0 as (_ & K). { intros v V. apply filter_In in V. destruct V as (V & W). split; [exact V|]. destruct (v3_eq_dec v (vpos vs a)); [discriminate|assumption]. }
  destruct F as (_ & _ & _ & P & _). destruct K as (s0 & s1 & (W0 & W1 & W2) & E). { clear; spec_unfold; ring. }
  revert P E. generalize (vpos vs a) (vpos vs b) (vpos vs c). intros p q r P E. replace s1 with (1 - s0) in E by lra. rewrite E in P. replace (cross (vsub q (comb2 s0 (1 - s0) q r)) (vsub r (comb2 s0 (1 - s0) q r))) with v3zero in P by (unfold comb2; clear; vring). replace (dot n v3zero) with 0 in P by (clear; spec_unfold; ring). lra.
Qed.
Lemma hull_surface_extreme l vs fs : hull_surface l vs fs -> forall x, List.In x l -> (List.In x vs <-> ~ exists L, (forall y, List.In y L -> List.In y l /\ y <> x) /\ convex_hull L x).
Proof.
  intros (ND & IN & IB & _ & _ & US & FO & CV & _) x X. split.
  - intros V (L & HL & C). destruct (In_nth_error _ _ V) as (k & K). assert (LK : (k < length vs)%nat) by (apply nth_error_Some; rewrite K; discriminate).
    destruct (US k LK) as (a & b & c & T & Q). apply in_map_iff in T. destruct T as ([[[a' b'] c'] n] & T & TI). cbn in T. injection T as -> -> ->. pose proof (FO a b c n TI) as F.
    assert (XK : vpos vs k = x) by (unfold vpos; apply nth_error_nth; exact K).
    assert (F' : exists b' c', outward_face l vs k b' c' n). { destruct Q as [->|[->| ->]]; [exists b, c|exists c, a; apply face_turn|exists a, b; apply face_turn, face_turn]; exact F. }
    destruct F' as (b' & c' & F'). subst x. apply (face_corner l vs k b' c' n F'). cut (forall w, convex_hull L w -> convex_hull (filter (fun y => if v3_eq_dec y (vpos vs k) then false else true) l) w); [intros Z; apply Z; exact C|]. clear C. intros w C. clear - HL C. induction C as [p P|u v p _ IHu _ IHv S]; [|apply (hull_mix _ u v); assumption].
    apply hull_point. apply filter_In. destruct (HL p P). split; [assumption|]. destruct (v3_eq_dec p (vpos vs k)); [contradiction|reflexivity].
  - intros NE. destruct (in_dec v3_eq_dec x vs) as [V|V]; [exact V|]. exfalso. apply NE. exists vs. split; [|apply CV; exact X]. intros y Y. split; [apply IN; exact Y|]. intros ->. contradiction.
Qed.

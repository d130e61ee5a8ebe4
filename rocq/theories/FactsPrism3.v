(** Prisms and pyramids: shifts of loops, signs, volumes. *)
From Coq Require Import Permutation.
From Verif Require Import Base SpecClip SpecMesh ModelPrism FactsVec FactsAlg FactsElem FactsClip FactsClip2 FactsClip3 FactsClip4 FactsPH FactsPrism FactsPrism2.
From Coq Require Import List Lia Lra.
Import ListNotations.
Open Scope R_scope.

(** ** shifted loops *)
Lemma tip_map f l u v x o l1 : tip_of l u v x o l1 -> tip_of (map f l) (f u) (f v) (f x) (map f o) (map f l1).
Proof.
  destruct 1 as [v x m u|p u v x s].
  - cbn [map]. rewrite !map_app. cbn [map]. apply tip_first.
  - rewrite !map_app. cbn [map]. apply tip_middle.
Qed.
Definition sh (s p : vec3) : vec3 := vadd p s.
Lemma sh_sub s a b : vsub (sh s a) (sh s b) = vsub a b.
Proof. unfold sh. destruct a, b, s. vring. Qed.
Lemma sh_back s p : sh (vneg s) (sh s p) = p.
Proof. unfold sh. destruct p, s. vring. Qed.
Lemma sh_near s a b c q : near_triangle a b c q -> near_triangle (sh s a) (sh s b) (sh s c) (sh s q).
Proof.
  intros (x & (s0 & s1 & s2 & (W0 & W1 & W2 & W) & ->) & D). exists (sh s (comb3 s0 s1 s2 a b c)). split.
  - exists s0, s1, s2. split; [unfold weights3; auto|]. unfold sh, comb3, comb2. assert (s0 = 1 - s1 - s2) by lra. subst s0. destruct a, b, c, s. vring.
  - unfold dist in *. rewrite sh_sub. exact D.
Qed.
Lemma sh_near_iff s a b c q : near_triangle (sh s a) (sh s b) (sh s c) (sh s q) <-> near_triangle a b c q.
Proof. split; [|apply sh_near]. intros H. apply (sh_near (vneg s)) in H. rewrite !sh_back in H. exact H. Qed.
Lemma sh_spin s n a b c : spin n (sh s a) (sh s b) (sh s c) = spin n a b c.
Proof. unfold spin. rewrite !sh_sub. reflexivity. Qed.
Lemma sh_cut s n u v x o : cuttable n u v x o -> cuttable n (sh s u) (sh s v) (sh s x) (map (sh s) o).
Proof.
  intros (S & H). split; [rewrite sh_spin; exact S|]. rewrite !sh_sub. intros B q I. apply in_map_iff in I. destruct I as (y & <- & I). rewrite sh_near_iff. apply H; assumption.
Qed.
Lemma sh_ear s n u v x o : ear n u v x o -> ear n (sh s u) (sh s v) (sh s x) (map (sh s) o).
Proof.
  intros (S & B & H). split; [rewrite sh_spin; exact S|]. rewrite !sh_sub. split; [exact B|]. intros q I. apply in_map_iff in I. destruct I as (y & <- & I). rewrite sh_near_iff. apply H; assumption.
Qed.
Lemma sh_map_back s l : map (sh s) (map (sh (vneg s)) l) = l.
Proof. rewrite map_map. erewrite map_ext; [apply map_id|]. intros p. unfold sh. destruct p, s. vring. Qed.
Lemma sh_earless s n l : earless n l -> earless n (map (sh s) l).
Proof.
  intros (L & H). split; [rewrite map_length; exact L|]. intros u v x o l1 T E. apply (tip_map (sh (vneg s))) in T. rewrite map_map in T. erewrite map_ext, map_id in T by (intros p; apply sh_back).
  apply (H _ _ _ _ _ T). apply sh_ear. exact E.
Qed.
Definition sh3 (s : vec3) (t : SpecClip.corners) : SpecClip.corners := let '(a, b, c) := t in (sh s a, sh s b, sh s c).
Lemma sh_reduces s n l ts l' : reduces n l ts l' -> reduces n (map (sh s) l) (map (sh3 s) ts) (map (sh s) l').
Proof. induction 1 as [l|l u v x o l1 ts l' T C H IH]; [constructor|]. cbn [map sh3]. econstructor; [apply tip_map, T|apply sh_cut, C|exact IH]. Qed.

(** ** sums over the sides of the loop *)
Lemma path_pairs f (l : list vec3) : path_sum Rplus 0 f l = rsum (fun e => f (fst e) (snd e)) (pairsP l).
Proof. induction l as [|a [|b l] IH]; [reflexivity|reflexivity|]. cbn [path_sum]. change (pairsP (a :: b :: l)) with ((a, b) :: pairsP (b :: l)). rewrite rsum_cons. cbn [fst snd]. f_equal. exact IH. Qed.
Lemma pairs_map {A B} (g : A -> B) l : pairsP (map g l) = map (fun e => (g (fst e), g (snd e))) (pairsP l).
Proof. induction l as [|a [|b l] IH]; [reflexivity|reflexivity|]. change (pairsP (map g (a :: b :: l))) with ((g a, g b) :: pairsP (map g (b :: l))). rewrite IH. reflexivity. Qed.
Lemma loop_ring f (g : nat -> vec3) a n : n <> 0%nat -> loop_sum Rplus 0 f (map g (seq a n)) = rsum (fun i => f (g (a + i)%nat) (g (a + nxt n i)%nat)) (seq 0 n).
Proof.
  intros N. unfold loop_sum. replace (firstn 1 (map g (seq a n))) with (map g (firstn 1 (seq a n))) by (destruct n; reflexivity). rewrite <- map_app, path_pairs, pairs_map, rsum_map. fold (pairsL (seq a n)). rewrite pairs_ring by exact N. rewrite rsum_map. reflexivity.
Qed.
Lemma ring_tele (g : nat -> R) n : n <> 0%nat -> rsum (fun i => g (nxt n i) - g i) (seq 0 n) = 0.
Proof.
  intros N. rewrite (rsum_ext _ (fun i => g (nxt n i) + (-1) * g i)) by (intros; ring). rewrite rsum_add, rsum_scale. rewrite <- (rsum_map (nxt n) g), (rsum_perm g _ _ (nxt_perm n N)). ring.
Qed.
Lemma unit_cross m x y : norm m = 1 -> dot m x = 0 -> dot m y = 0 -> cross x y = vscale (dot m (cross x y)) m.
Proof.
  intros U X Y. assert (D : dot m m = 1) by (pose proof (norm_sqr m) as Q; rewrite U in Q; lra). rewrite (plane_cross m x y) at 1; [rewrite D; f_equal; field| |exact X|exact Y]. intros ->. unfold norm in U. replace (dot v3zero v3zero) with 0 in U by (spec_unfold; ring). rewrite sqrt_0 in U. lra.
Qed.
Section Ring.
Variables (o m s : vec3) (g : nat -> vec3) (n : nat).
Hypothesis U : norm m = 1.
Hypothesis N : n <> 0%nat.
Hypothesis P : forall i, (i < n)%nat -> dot m (vsub (g i) o) = 0.
Lemma ring_area : rsum (fun i => dot s (cross (g i) (g (nxt n i)))) (seq 0 n) = dot s m * loop_area m (map g (seq 0 n)).
Proof.
  unfold loop_area. rewrite (loop_ring (fun a b => dot m (cross a b)) g 0 n N). cbn [plus]. rewrite <- rsum_scale.
  set (h := fun j => dot s (cross o (g j)) - dot s m * dot m (cross o (g j))). pose proof (ring_tele h n N) as T.
  rewrite (rsum_ext (fun i => dot s (cross (g i) (g (nxt n i)))) (fun i => dot s m * dot m (cross (g i) (g (nxt n i))) + (h (nxt n i) - h i))).
  - rewrite rsum_add, T. ring.
  - intros i I. apply in_seq in I. assert (A : dot m (vsub (g i) o) = 0) by (apply P; lia). assert (B : dot m (vsub (g (nxt n i)) o) = 0) by (apply P; destruct (nxt_cases n i); lia).
    pose proof (unit_cross m _ _ U A B) as C. apply (f_equal (dot s)) in C. unfold h. generalize (g i) (g (nxt n i)) C. clear. intros a b C. replace (dot s (cross a b)) with (dot s (cross (vsub a o) (vsub b o)) + dot s (cross o b) - dot s (cross o a)) by (spec_unfold; ring). rewrite C. spec_unfold. ring.
Qed.
End Ring.
Lemma vol_fold a b c : cone_vol v3zero (a, b, c) = dot a (cross b c) / 6.
Proof. unfold cone_vol, vol6, det3v. spec_unfold. field. Qed.
Lemma vol_turn vs f : cone_vol v3zero (corners vs (turned f)) = - cone_vol v3zero (corners vs f).
Proof. destruct f as ((a, b), c). cbn [turned corners]. rewrite !vol_fold. spec_unfold. field. Qed.
Lemma mesh_turn vs fs : mesh_vol v3zero vs (map turned fs) = - mesh_vol v3zero vs fs.
Proof. unfold mesh_vol. rewrite rsum_map. rewrite (rsum_ext _ (fun f => (-1) * cone_vol v3zero (corners vs f))) by (intros; rewrite vol_turn; ring). rewrite rsum_scale. ring. Qed.
Lemma mesh_app vs a b : mesh_vol v3zero vs (a ++ b) = mesh_vol v3zero vs a + mesh_vol v3zero vs b.
Proof. unfold mesh_vol. apply rsum_app. Qed.
Lemma planar_scale o m k l : k <> 0 -> planar o m l -> planar o (vscale k m) l.
Proof.
  intros K (Z & H). split.
  - intros E. apply Z. replace m with (vscale (/ k) (vscale k m)); [rewrite E; destruct m; vring|]. destruct m as [x y z]. apply vec3_ext; spec_unfold; field; exact K.
  - intros p I. specialize (H p I). replace (dot (vscale k m) (vsub p o)) with (k * dot m (vsub p o)) by (spec_unfold; ring). rewrite H. ring.
Qed.
Lemma area_scale k m l : loop_area (vscale k m) l = k * loop_area m l.
Proof.
  unfold loop_area, loop_sum. generalize (l ++ firstn 1 l). intros x. induction x as [|a [|b x] IH]; [cbn; ring|cbn; ring|]. cbn [path_sum] in *. rewrite IH. rewrite Rmult_plus_distr_l. f_equal. spec_unfold. ring.
Qed.
Lemma spin_scale k m a b c : spin (vscale k m) a b c = k * spin m a b c.
Proof. unfold spin. spec_unfold. ring. Qed.
(** ** the triangles of a loop that was cut down to two corners *)
Section Cut.
Variables (vs : list vec3) (o m : vec3) (k : R) (L : list nat) (ts : list (nat * nat * nat)) (l' : list nat).
Notation pos := (vertAt vs).
Hypothesis U : norm m = 1.
Hypothesis P : planar o m (map pos L).
Hypothesis C : cutsN vs (vscale k m) L ts l'.
Hypothesis L' : (length l' <= 2)%nat.
Hypothesis Ne : ts <> [].
Notation A := (loop_area m (map pos L)).
Lemma cut_in a b c : List.In (a, b, c) ts -> 0 < k * spin m (pos a) (pos b) (pos c) /\ dot m (vsub (pos a) o) = 0 /\ dot m (vsub (pos b) o) = 0 /\ dot m (vsub (pos c) o) = 0.
Proof.
  intros I. destruct (reduces_in _ _ _ _ (cutsN_reduces _ _ _ _ _ C)) as (_ & H). destruct (H (pos a) (pos b) (pos c)) as (Ia & Ib & Ic & S); [apply (in_map (posOf vs) ts (a, b, c) I)|].
  rewrite spin_scale in S. destruct P as (_ & Q). auto.
Qed.
Lemma cut_k : k <> 0.
Proof.
  assert (G : exists f, List.In f ts) by (revert Ne; generalize ts; intros [|f r] H; [congruence|exists f; left; reflexivity]). destruct G as (((a, b), c) & I). destruct (cut_in a b c I) as (S & _). intros E. rewrite E in S. lra.
Qed.
Lemma cut_area : A = rsum (fun f => let '(a, b, c) := f in spin m (pos a) (pos b) (pos c)) ts.
Proof.
  pose proof (area_sum _ _ _ _ (cutsN_reduces _ _ _ _ _ C) ltac:(rewrite map_length; exact L')) as E. rewrite area_scale in E. apply (Rmult_eq_reg_l k); [|exact cut_k]. rewrite E, <- rsum_scale. clear E. generalize ts. intros q. induction q as [|((a, b), c) r IH]; [reflexivity|]. cbn [map fold_right posOf twice]. rewrite rsum_cons, IH, spin_scale. reflexivity.
Qed.
Lemma cut_sign a b c : List.In (a, b, c) ts -> 0 < A * spin m (pos a) (pos b) (pos c).
Proof.
  assert (G : forall r, incl r ts -> r <> [] -> 0 < k * rsum (fun f => let '(a, b, c) := f in spin m (pos a) (pos b) (pos c)) r).
  { induction r as [|((x, y), z) r IH]; intros I E; [congruence|]. rewrite rsum_cons, Rmult_plus_distr_l. destruct (cut_in x y z) as (S & _); [apply I; left; reflexivity|]. destruct r as [|f r]; [rewrite rsum_nil; lra|]. assert (0 < k * rsum (fun f => let '(a, b, c) := f in spin m (pos a) (pos b) (pos c)) (f :: r)) by (apply IH; [intros e J; apply I; right; exact J|discriminate]). lra. }
  specialize (G ts (incl_refl _) Ne). rewrite <- cut_area in G. intros I. destruct (cut_in a b c I) as (S & _). assert (0 < k * k) by (pose proof cut_k; nra). assert (H9 : 0 < (k * A) * (k * spin m (pos a) (pos b) (pos c))) by (apply Rmult_lt_0_compat; assumption).
  apply (Rmult_lt_reg_l (k * k)); [assumption|]. lra.
Qed.
Lemma cut_normal a b c : List.In (a, b, c) ts -> cross (vsub (pos b) (pos a)) (vsub (pos c) (pos b)) = vscale (spin m (pos a) (pos b) (pos c)) m.
Proof.
  intros I. destruct (cut_in a b c I) as (_ & Da & Db & Dc). rewrite spin_outer. apply unit_cross; [exact U| |].
  - replace (vsub (pos b) (pos a)) with (vsub (vsub (pos b) o) (vsub (pos a) o)) by (generalize (pos a) (pos b); intros; vring). replace (dot m (vsub (vsub (pos b) o) (vsub (pos a) o))) with (dot m (vsub (pos b) o) - dot m (vsub (pos a) o)) by (spec_unfold; ring). lra.
  - replace (vsub (pos c) (pos b)) with (vsub (vsub (pos c) o) (vsub (pos b) o)) by (generalize (pos c) (pos b); intros; vring). replace (dot m (vsub (vsub (pos c) o) (vsub (pos b) o))) with (dot m (vsub (pos c) o) - dot m (vsub (pos b) o)) by (spec_unfold; ring). lra.
Qed.
Lemma cut_flip ref f : dot ref m <> 0 -> List.In f ts -> Rltb (zVec3DInnerProd ref (fnrm (faceNum vs f))) 0 = Rltb (A * dot ref m) 0.
Proof.
  destruct f as ((a, b), c). intros Z I. unfold faceNum. cbn [fnrm]. destruct (create_norm (pos a) (pos b) (pos c)) as (q & Q & E). cbv zeta in E. rewrite E, (cut_normal a b c I). zvg. pose proof (cut_sign a b c I) as S. set (sg := spin m (pos a) (pos b) (pos c)) in *.
  replace (dot ref (vscale q (vscale sg m))) with (q * sg * dot ref m) by (clear; spec_unfold; ring).
  assert (H : q * sg * dot ref m < 0 <-> A * dot ref m < 0).
  { assert (SA : 0 < q * sg * A) by (replace (q * sg * A) with (q * (A * sg)) by ring; apply Rmult_lt_0_compat; assumption). set (d := dot ref m) in *. set (z := A) in *. set (y := q * sg) in *. split; intros H; destruct (Rlt_dec 0 y); destruct (Rlt_dec 0 d); nra. }
  destruct (Rltb_reflect (q * sg * dot ref m) 0), (Rltb_reflect (A * dot ref m) 0); try reflexivity; exfalso; tauto.
Qed.
Lemma cut_vol : mesh_vol v3zero vs ts = dot o m * A / 6.
Proof.
  rewrite cut_area. unfold mesh_vol. replace (dot o m * rsum (fun f => let '(a, b, c) := f in spin m (pos a) (pos b) (pos c)) ts / 6) with (dot o m / 6 * rsum (fun f => let '(a, b, c) := f in spin m (pos a) (pos b) (pos c)) ts) by field. rewrite <- rsum_scale. apply rsum_ext. intros ((a, b), c) I.
  cbn [corners]. change (vpos vs) with pos. rewrite vol_fold. pose proof (cut_normal a b c I) as E. destruct (cut_in a b c I) as (_ & Da & _ & _). apply (f_equal (dot (pos a))) in E.
  replace (dot (pos a) (cross (pos b) (pos c))) with (dot (pos a) (cross (vsub (pos b) (pos a)) (vsub (pos c) (pos b)))) by (generalize (pos a) (pos b) (pos c); clear; intros; spec_unfold; ring). rewrite E. set (sg := spin m (pos a) (pos b) (pos c)) in *.
  replace (dot (pos a) (vscale sg m)) with (sg * (dot m (vsub (pos a) o) + dot o m)) by (generalize (pos a); clear; intros; spec_unfold; ring). rewrite Da. field.
Qed.
End Cut.

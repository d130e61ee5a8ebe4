(** Proofs about polyhedra: mass properties of closed meshes. *)
From Verif Require Import Base Spec SpecMesh ModelPH FactsVec FactsAlg FactsMat FactsElem FactsTri FactsTri2 FactsCentre FactsFrame FactsBox FactsObb FactsRound FactsSolid.
Open Scope R_scope.

(** ** sums *)
Lemma rsum_nil {A} (f : A -> R) : rsum f [] = 0. Proof. reflexivity. Qed.
Lemma rsum_cons {A} (f : A -> R) a l : rsum f (a :: l) = f a + rsum f l. Proof. reflexivity. Qed.
Lemma vsum_cons {A} (f : A -> vec3) a l : vsum f (a :: l) = vadd (f a) (vsum f l). Proof. reflexivity. Qed.
Lemma msum_cons {A} (f : A -> mat3) a l : msum f (a :: l) = madd (f a) (msum f l). Proof. reflexivity. Qed.
Lemma rsum_app {A} (f : A -> R) l1 l2 : rsum f (l1 ++ l2) = rsum f l1 + rsum f l2.
Proof. induction l1 as [|a t IH]; cbn [app]; rewrite ?rsum_nil, ?rsum_cons, ?IH; ring. Qed.
Lemma rsum_perm {A} (f : A -> R) l1 l2 : Permutation l1 l2 -> rsum f l1 = rsum f l2.
Proof. induction 1; rewrite ?rsum_cons; lra. Qed.
Lemma rsum_ext {A} (f g : A -> R) l : (forall a, In a l -> f a = g a) -> rsum f l = rsum g l.
Proof.
  intros H. induction l as [|a t IH]; [reflexivity|]. rewrite !rsum_cons. rewrite IH, (H a); [reflexivity|left; reflexivity|intros; apply H; right; assumption].
Qed.
Lemma rsum_map {A B} (g : A -> B) (f : B -> R) l : rsum f (map g l) = rsum (fun a => f (g a)) l.
Proof. induction l as [|a t IH]; [reflexivity|]. cbn [map]. rewrite !rsum_cons, IH. reflexivity. Qed.
Lemma rsum_add {A} (f g : A -> R) l : rsum (fun a => f a + g a) l = rsum f l + rsum g l.
Proof. induction l as [|a t IH]; rewrite ?rsum_nil, ?rsum_cons, ?IH; ring. Qed.
Lemma rsum_scale {A} k (f : A -> R) l : rsum (fun a => k * f a) l = k * rsum f l.
Proof. induction l as [|a t IH]; rewrite ?rsum_nil, ?rsum_cons, ?IH; ring. Qed.
Lemma rsum_flat {A B} (g : A -> list B) (f : B -> R) l : rsum f (flat_map g l) = rsum (fun a => rsum f (g a)) l.
Proof. induction l as [|a t IH]; [reflexivity|]. cbn [flat_map]. rewrite rsum_app, IH. reflexivity. Qed.
Lemma vsum_comp {A} (f : A -> vec3) l : vsum f l = V3 (rsum (fun a => vx (f a)) l) (rsum (fun a => vy (f a)) l) (rsum (fun a => vz (f a)) l).
Proof. induction l as [|a t IH]; [reflexivity|]. rewrite vsum_cons, IH. reflexivity. Qed.
Lemma msum_comp {A} (f : A -> mat3) l : msum f l =
  M3 (rsum (fun a => cxx (f a)) l) (rsum (fun a => cxy (f a)) l) (rsum (fun a => cxz (f a)) l)
     (rsum (fun a => cyx (f a)) l) (rsum (fun a => cyy (f a)) l) (rsum (fun a => cyz (f a)) l)
     (rsum (fun a => czx (f a)) l) (rsum (fun a => czy (f a)) l) (rsum (fun a => czz (f a)) l).
Proof. induction l as [|a t IH]; [reflexivity|]. rewrite msum_cons, IH. reflexivity. Qed.

(** ** closed meshes: contributions of sides cancel *)
Definition side_sum (E : vec3 -> vec3 -> R) (vs : list vec3) (fs : list (nat * nat * nat)) : R :=
  rsum (fun e => E (vpos vs (fst e)) (vpos vs (snd e))) (all_sides fs).
Lemma side_cancel E vs fs : (forall a b, E b a = - E a b) -> closed fs -> side_sum E vs fs = 0.
Proof.
  intros A C. assert (Q : side_sum E vs fs = - side_sum E vs fs); [|lra]. unfold side_sum.
  transitivity (rsum (fun e => E (vpos vs (fst e)) (vpos vs (snd e))) (map opp (all_sides fs))); [apply rsum_perm, C|].
  rewrite rsum_map. cbn [opp fst snd]. rewrite (rsum_ext _ (fun e => (-1) * E (vpos vs (fst e)) (vpos vs (snd e)))).
  - rewrite rsum_scale. ring.
  - intros e _. rewrite A. ring.
Qed.
(** a face function that is the sum of an antisymmetric side function vanishes in total *)
Lemma face_cancel (g : vec3 * vec3 * vec3 -> R) E vs fs : (forall a b c, g (a, b, c) = E a b + E b c + E c a) ->
  (forall a b, E b a = - E a b) -> closed fs -> rsum (fun f => g (corners vs f)) fs = 0.
Proof.
  intros G A C. rewrite <- (side_cancel E vs fs A C). unfold side_sum, all_sides. rewrite rsum_flat. apply rsum_ext.
  intros [[i j] k] _. cbn [corners sides]. rewrite G, !rsum_cons, rsum_nil. cbn [fst snd]. ring.
Qed.
Lemma face_same (g h : vec3 * vec3 * vec3 -> R) E vs fs : (forall a b c, g (a, b, c) = h (a, b, c) + (E a b + E b c + E c a)) ->
  (forall a b, E b a = - E a b) -> closed fs -> rsum (fun f => g (corners vs f)) fs = rsum (fun f => h (corners vs f)) fs.
Proof.
  intros G A C. pose proof (face_cancel (fun t => g t - h t) E vs fs) as F.
  assert (F0 : rsum (fun f => g (corners vs f) - h (corners vs f)) fs = 0) by (apply F; [intros; rewrite G; ring|exact A|exact C]).
  rewrite (rsum_ext _ (fun f => g (corners vs f) + (-1) * h (corners vs f))) in F0 by (intros; ring).
  rewrite rsum_add, rsum_scale in F0. lra.
Qed.

(** ** moments of the cones with apex [o]: volume, first and second moments *)
Definition det4 (o a b c : vec3) : R := vol6 o a b c.
(** integral of x x^T over the tetrahedron (up to the density) *)
Definition cone_second (o : vec3) (t : vec3 * vec3 * vec3) : mat3 :=
  let '(a, b, c) := t in let s := vadd (vadd (vadd o a) b) c in
  mscale (vol6 o a b c / 120) (madd (madd (madd (madd (outer o o) (outer a a)) (outer b b)) (outer c c)) (outer s s)).
Definition mesh_second (o : vec3) (vs : list vec3) (fs : list (nat * nat * nat)) : mat3 := msum (fun f => cone_second o (corners vs f)) fs.

Lemma vol_apex o vs fs : closed fs -> mesh_vol o vs fs = mesh_vol v3zero vs fs.
Proof.
  intros C. unfold mesh_vol. apply (face_same _ _ (fun a b => - dot o (cross a b) / 6)); [| |exact C].
  - intros. unfold cone_vol, vol6, det3v. spec_unfold. field.
  - intros. spec_unfold. field.
Qed.
Ltac apexE o P F := apply (face_same (fun t => P (F o t)) (fun t => P (F v3zero t)) (fun a b => - P (F v3zero (o, a, b)))); [intros; unfold cone_moment, cone_second, cone_vol, vol6, det3v; spec_unfold; field|intros; unfold cone_moment, cone_second, cone_vol, vol6, det3v; spec_unfold; field|assumption].
Lemma moment_apex o vs fs : closed fs -> mesh_moment o vs fs = mesh_moment v3zero vs fs.
Proof.
  intros C. unfold mesh_moment. rewrite !vsum_comp. f_equal.
  - apexE o vx cone_moment.
  - apexE o vy cone_moment.
  - apexE o vz cone_moment.
Qed.
Lemma second_apex o vs fs : closed fs -> mesh_second o vs fs = mesh_second v3zero vs fs.
Proof.
  intros C. unfold mesh_second. rewrite !msum_comp. f_equal.
  - apexE o cxx cone_second.
  - apexE o cxy cone_second.
  - apexE o cxz cone_second.
  - apexE o cyx cone_second.
  - apexE o cyy cone_second.
  - apexE o cyz cone_second.
  - apexE o czx cone_second.
  - apexE o czy cone_second.
  - apexE o czz cone_second.
Qed.

(** ** effect of moving the vertices *)
Lemma vpos_map g vs i : g v3zero = v3zero \/ (i < length vs)%nat -> vpos (map g vs) i = g (vpos vs i).
Proof.
  intros H. unfold vpos. destruct (Nat.lt_ge_cases i (length vs)) as [L|L].
  - rewrite (nth_indep _ v3zero (g v3zero)) by (rewrite map_length; exact L). apply map_nth.
  - destruct H as [H|H]; [|lia]. rewrite !nth_overflow; rewrite ?map_length; auto.
Qed.
Lemma corners_map g vs fs f : indices_below (length vs) fs -> In f fs ->
  corners (map g vs) f = let '(a, b, c) := corners vs f in (g a, g b, g c).
Proof.
  intros H I. unfold indices_below in H. rewrite Forall_forall in H. specialize (H f I). destruct f as [[i j] k]. destruct H as (A & B & C).
  cbn [corners]. rewrite !vpos_map by (right; assumption). reflexivity.
Qed.
Definition vol0 := mesh_vol v3zero. Definition mom0 := mesh_moment v3zero. Definition sec0 := mesh_second v3zero.
(** one face under an affine map [x -> p + m x] *)
Section Affine.
Variables (m : mat3) (p : vec3) (vs : list vec3) (fs : list (nat * nat * nat)).
Hypothesis HV : indices_below (length vs) fs.
Hypothesis HC : closed fs.
(** the apex that is mapped to the origin *)
Variable o : vec3.
Hypothesis Ho : vadd p (mvec m o) = v3zero.
Let g (x : vec3) := vadd p (mvec m x).
Lemma aff_vol6 a b c : vol6 v3zero (g a) (g b) (g c) = mdet m * vol6 o a b c.
Proof.
  rewrite <- Ho. unfold g, vol6, det3v. clear. spec_unfold. ring.
Qed.
Lemma aff_vol : vol0 (map g vs) fs = mdet m * vol0 vs fs.
Proof.
  unfold vol0. rewrite <- (vol_apex o vs fs) by exact HC. unfold mesh_vol. rewrite <- rsum_scale. apply rsum_ext. intros f I.
  rewrite (corners_map g vs fs f HV I). destruct (corners vs f) as [[a b] c]. lazy beta iota delta [cone_vol]. rewrite aff_vol6. field.
Qed.
Lemma aff_sum a b c : vadd (vadd (vadd v3zero (g a)) (g b)) (g c) = vadd (vscale 4 p) (mvec m (vadd (vadd (vadd o a) b) c)).
Proof. transitivity (vadd (vadd (vadd (vadd p (mvec m o)) (g a)) (g b)) (g c)); [rewrite Ho; reflexivity|]. unfold g. clear. vring. Qed.
Lemma vsum_ext {A} (f h : A -> vec3) l : (forall a, In a l -> f a = h a) -> vsum f l = vsum h l.
Proof. intros H. rewrite !vsum_comp. f_equal; apply rsum_ext; intros a I; rewrite (H a I); reflexivity. Qed.
Lemma msum_ext {A} (f h : A -> mat3) l : (forall a, In a l -> f a = h a) -> msum f l = msum h l.
Proof. intros H. rewrite !msum_comp. f_equal; apply rsum_ext; intros a I; rewrite (H a I); reflexivity. Qed.
Lemma vsum_lin {A} (k : A -> R) (w : A -> vec3) (q : vec3) (n : mat3) l :
  vsum (fun a => vadd (vscale (k a) q) (mvec n (w a))) l = vadd (vscale (rsum k l) q) (mvec n (vsum w l)).
Proof.
  induction l as [|a t IH]; [clear; cbn [rsum vsum fold_right]; vring|]. rewrite !vsum_cons, rsum_cons, IH. clear. vring.
Qed.
Lemma aff_mom : mom0 (map g vs) fs = vscale (mdet m) (vadd (vscale (vol0 vs fs) p) (mvec m (mom0 vs fs))).
Proof.
  unfold mom0, vol0. rewrite <- (vol_apex o vs fs), <- (moment_apex o vs fs) by exact HC. unfold mesh_moment, mesh_vol.
  rewrite (vsum_ext _ (fun f => vadd (vscale (mdet m * cone_vol o (corners vs f)) p) (mvec (mscale (mdet m) m) (cone_moment o (corners vs f))))).
  - rewrite vsum_lin, rsum_scale. clear. vring.
  - intros f I. rewrite (corners_map g vs fs f HV I). destruct (corners vs f) as [[a b] c]. lazy beta iota delta [cone_moment cone_vol].
    rewrite aff_sum, aff_vol6. clear. apply vec3_ext; spec_unfold; field.
Qed.
Definition sec_aff (k : R) (w : vec3) (S : mat3) : mat3 :=
  madd (madd (mscale k (outer p p)) (madd (outer p (mvec m w)) (outer (mvec m w) p))) (mmul m (mmul S (mtr m))).
Lemma msum_lin {A} d (k : A -> R) (w : A -> vec3) (S : A -> mat3) l :
  msum (fun a => mscale d (sec_aff (k a) (w a) (S a))) l = mscale d (sec_aff (rsum k l) (vsum w l) (msum S l)).
Proof.
  induction l as [|a t IH]; [clear; cbn [rsum vsum msum fold_right]; unfold sec_aff; mring|]. rewrite !msum_cons, !vsum_cons, rsum_cons, IH. clear. unfold sec_aff. mring.
Qed.
Lemma aff_sec : sec0 (map g vs) fs = mscale (mdet m) (sec_aff (vol0 vs fs) (mom0 vs fs) (sec0 vs fs)).
Proof.
  unfold sec0, mom0, vol0. rewrite <- (vol_apex o vs fs), <- (moment_apex o vs fs), <- (second_apex o vs fs) by exact HC. unfold mesh_moment, mesh_vol, mesh_second.
  rewrite <- msum_lin. apply msum_ext.
  intros f I. rewrite (corners_map g vs fs f HV I). destruct (corners vs f) as [[a b] c]. lazy beta iota delta [cone_second cone_moment cone_vol].
  rewrite aff_sum, aff_vol6.
  assert (E0 : outer v3zero v3zero = outer (g o) (g o)) by (unfold g; rewrite Ho; reflexivity). rewrite E0.
  generalize (vol6 o a b c) as d. generalize (mdet m) as e. clear. intros e d. unfold sec_aff, g.
  apply mat3_ext; spec_unfold; field.
Qed.
End Affine.

(** The least rectangle about a convex loop rests on one of its edges *)
From Verif Require Import Base Spec SpecGeom SpecHull SpecBBox ModelVec ModelElem FactsVec FactsAlg FactsElem FactsSat FactsHull FactsHull2 FactsHull3 FactsHull4 FactsHull5 FactsHull6.
From Coq Require Import List Lia Lra ZArith.
Import ListNotations.
Open Scope R_scope.

(** ** extents *)
Lemma extent_ex d l : l <> [] -> exists w, extent d l w.
Proof.
  intros N. assert (M : forall g : vec3, exists p, List.In p l /\ forall x, List.In x l -> dot g x <= dot g p).
  { intros g. clear d. induction l as [|a l IH]; [contradiction|]. destruct l as [|b l].
    - exists a. split; [left; reflexivity|]. intros x [<-|[]]. lra.
    - destruct IH as (p & I & H); [discriminate|]. destruct (Rle_or_lt (dot g a) (dot g p)) as [K|K].
      + exists p. split; [right; exact I|]. intros x [<-|J]; [exact K|apply H, J].
      + exists a. split; [left; reflexivity|]. intros x [<-|J]; [lra|]. specialize (H x J). lra. }
  destruct (M d) as (p & I & P). destruct (M (vneg d)) as (q & J & Q). exists (dot d (vsub p q)), p, q. repeat split; try assumption.
  intros x y X Y. specialize (P x X). specialize (Q y Y). unfold vneg in Q. spec_unfold. lra.
Qed.
Lemma extent_unique d l w w' : extent d l w -> extent d l w' -> w = w'.
Proof. intros (p & q & I & J & E & H) (p' & q' & I' & J' & E' & H'). pose proof (H p' q' I' J'). pose proof (H' p q I J). lra. Qed.
Lemma extent_nonneg d l w : extent d l w -> 0 <= w.
Proof. intros (p & q & I & J & E & H). specialize (H p p I I). replace (dot d (vsub p p)) with 0 in H by (spec_unfold; ring). exact H. Qed.
Lemma extent_scale k d l w : extent d l w -> extent (vscale k d) l (Rabs k * w).
Proof.
  intros (p & q & I & J & E & H). assert (S : forall x y, dot (vscale k d) (vsub x y) = k * dot d (vsub x y)) by (intros; spec_unfold; ring).
  assert (F : forall x y, dot d (vsub y x) = - dot d (vsub x y)) by (intros; spec_unfold; ring). unfold Rabs. destruct (Rcase_abs k) as [K|K].
  - exists q, p. split; [exact J|]. split; [exact I|]. split; [rewrite S, (F p q), <- E; ring|]. intros x y X Y. rewrite S, (F y x). specialize (H y x Y X). nra.
  - exists p, q. split; [exact I|]. split; [exact J|]. split; [rewrite S, <- E; ring|]. intros x y X Y. rewrite S. specialize (H x y X Y). apply Rmult_le_compat_l; lra.
Qed.
(** ** the first constraint that becomes tight *)
Lemma first_tight (F : list (R * R)) : (forall g, List.In g F -> 0 <= fst g) ->
  (forall g, List.In g F -> 0 <= snd g) \/
  exists t, 0 <= t /\ (forall g, List.In g F -> 0 <= fst g + t * snd g) /\ exists g, List.In g F /\ snd g < 0 /\ fst g + t * snd g = 0.
Proof.
  induction F as [|[a b] F IH]; intros P; [left; intros g []|]. assert (A : 0 <= a) by (apply (P (a, b)); left; reflexivity).
  assert (P' : forall g, List.In g F -> 0 <= fst g) by (intros h J; apply P; right; exact J).
  assert (SZ : b < 0 -> 0 <= - a / b /\ a + - a / b * b = 0).
  { intros B. split; [|field; lra]. replace (- a / b) with (a * / - b) by (field; lra). apply Rmult_le_pos; [exact A|]. left. apply Rinv_0_lt_compat. lra. }
  destruct (IH P') as [H|(t & T & H & (g & I & N & Z))].
  - destruct (Rle_or_lt 0 b) as [B|B]; [left; intros g [<-|J]; [exact B|apply H, J]|]. right. destruct (SZ B) as (Z1 & Z2). exists (- a / b). split; [exact Z1|]. split.
    + intros g [<-|J]; [cbn [fst snd]; lra|]. specialize (H g J). specialize (P' g J). assert (0 <= - a / b * snd g) by (apply Rmult_le_pos; assumption). lra.
    + exists (a, b). split; [left; reflexivity|]. split; [exact B|exact Z2].
  - right. destruct (Rle_or_lt 0 (a + t * b)) as [Q|Q].
    + exists t. split; [exact T|]. split; [intros h [<-|J]; [exact Q|apply H, J]|]. exists g. split; [right; exact I|]. split; assumption.
    + assert (B : b < 0) by nra. destruct (SZ B) as (Z1 & Z2). set (z := - a / b) in *. assert (zt : z <= t) by nra. exists z. split; [exact Z1|]. split.
      * intros h [<-|J]; [cbn [fst snd]; lra|]. specialize (H h J). specialize (P' h J). destruct (Rle_or_lt 0 (snd h)) as [K|K]; [assert (0 <= z * snd h) by (apply Rmult_le_pos; assumption); lra|]. nra.
      * exists (a, b). split; [left; reflexivity|]. split; [exact B|exact Z2].
Qed.
(** ** the area along a turning direction has no inner minimum *)
Lemma area_quotient a b c d s t : 0 <= a -> 0 <= c -> 0 <= s -> 0 <= t -> 0 <= a + b * t -> 0 <= c + d * t -> 0 <= a - b * s -> 0 <= c - d * s ->
  (a + b * t) * (c + d * t) <= a * c * (1 + t * t) \/ (a - b * s) * (c - d * s) <= a * c * (1 + s * s).
Proof.
  intros A C S T B1 D1 B2 D2. destruct (Rle_or_lt ((a + b * t) * (c + d * t)) (a * c * (1 + t * t))) as [H|H]; [left; exact H|right].
  destruct (Rle_or_lt ((a - b * s) * (c - d * s)) (a * c * (1 + s * s))) as [K|K]; [exact K|exfalso].
  assert (Tp : 0 < t) by (destruct T as [T|T]; [exact T|subst t; lra]). assert (Sp : 0 < s) by (destruct S as [S|S]; [exact S|subst s; lra]).
  assert (H1 : 0 < a * d + b * c + (b * d - a * c) * t) by (apply (Rmult_lt_reg_l t); [exact Tp|]; ring_simplify; lra).
  assert (K1 : a * d + b * c - (b * d - a * c) * s < 0) by (apply (Rmult_lt_reg_l s); [exact Sp|]; ring_simplify; lra).
  assert (AC : 0 <= a * c) by (apply Rmult_le_pos; assumption). assert (BD : 0 < b * d) by nra.
  destruct (Rlt_or_le 0 b) as [Bp|Bp].
  - assert (Dp : 0 < d) by nra. nra.
  - assert (Bn : b < 0) by nra. assert (Dn : d < 0) by nra. nra.
Qed.
(** ** loops in the plane across [n] *)
Lemma loop_next L p : List.In p L -> exists b, loop_edge L p b.
Proof.
  intros I. apply in_split in I. destruct I as (l1 & l2 & ->). destruct l2 as [|b l2].
  - destruct l1 as [|a l1]; [exists p, [], []; reflexivity|]. exists a, (a :: l1), []. cbn. rewrite <- app_assoc. reflexivity.
  - exists b, l1, (l2 ++ firstn 1 (l1 ++ p :: b :: l2)). rewrite <- app_assoc. reflexivity.
Qed.
Lemma unit_nz n : dot n n = 1 -> n <> v3zero.
Proof. intros Un ->. unfold v3zero in Un. spec_unfold. cbn in Un. lra. Qed.
Section Plane.
Variables (n : vec3) (o m : vec3) (L : list vec3).
Hypothesis Un : dot n n = 1.
Hypothesis Fl : forall p q, List.In p L -> List.In q L -> dot n (vsub p q) = 0.
Hypothesis CL : convex_loop o m L.
Lemma normal_along : exists k, k <> 0 /\ m = vscale k n.
Proof.
  destruct CL as (H3 & (Mz & Pl) & E & T). destruct L as [|a L'] eqn:EL; [cbn in H3; lia|]. rewrite <- EL in *.
  destruct (loop_next L a) as (b & J); [rewrite EL; left; reflexivity|]. destruct (loop_turn_of_edge L a b H3 J) as (_ & (c & K)).
  pose proof (T a b c K) as P. destruct (loop_edge_of_turn _ _ _ _ K) as (J1 & J2). destruct (loop_edge_in _ _ _ J1) as (Ia & Ib). destruct (loop_edge_in _ _ _ J2) as (_ & Ic).
  destruct (cross_plane n (vsub b a) (vsub c a)) as (s & S); [apply Fl; assumption|apply Fl; assumption|apply unit_nz, Un|].
  pose proof (Pl a Ia) as Pa. pose proof (Pl b Ib) as Pb. pose proof (Pl c Ic) as Pc.
  destruct (cross_plane m (vsub b a) (vsub c a)) as (s' & S'); [spec_unfold; lra|spec_unfold; lra|exact Mz|].
  rewrite S' in P. assert (s' <> 0). { intros ->. spec_unfold. lra. } rewrite S in S'.
  exists (s / s'). assert (EM : m = vscale (s / s') n).
  { apply vec3_ext; [apply (f_equal vx) in S'|apply (f_equal vy) in S'|apply (f_equal vz) in S']; unfold vscale in *; cbn [vx vy vz] in *; apply (Rmult_eq_reg_l s'); try assumption; rewrite <- S'; field; assumption. }
  split; [|exact EM]. intros Z. rewrite Z in EM. apply Mz. rewrite EM. unfold v3zero. apply vec3_ext; spec_unfold; cbn; ring.
Qed.
(** two corners on a supporting line: an edge is along that line *)
Lemma support_edge g p v : dot n g = 0 -> List.In p L -> List.In v L -> p <> v -> (forall x, List.In x L -> dot g (vsub x p) <= 0) -> dot g (vsub v p) = 0 ->
  exists a b, loop_edge L a b /\ dot g (vsub b a) = 0.
Proof.
  intros G Ip Iv NE H Z. destruct normal_along as (k & Kz & EM). destruct CL as (H3 & _ & E & T).
  destruct (loop_next L p Ip) as (b & J). destruct (loop_turn_of_edge L p b H3 J) as ((z & Tz) & _). destruct (loop_edge_of_turn _ _ _ _ Tz) as (Jz & _).
  destruct (loop_edge_in _ _ _ J) as (_ & Ib). destruct (loop_edge_in _ _ _ Jz) as (Iz & _). apply T in Tz.
  pose proof (E p b v J Iv) as E1. pose proof (E z p v Jz Iv) as E2. rewrite EM in Tz, E1, E2.
  pose proof (H b Ib) as Hb. pose proof (H z Iz) as Hz. pose proof (Fl b p Ib Ip) as Fb. pose proof (Fl z p Iz Ip) as Fz. pose proof (Fl v p Iv Ip) as Fv.
  set (uw := dot n (cross (vsub b p) (vsub z p))). set (uv := dot n (cross (vsub b p) (vsub v p))). set (vw := dot n (cross (vsub v p) (vsub z p))).
  assert (X1 : 0 < k * uw). { replace (k * uw) with (dot (vscale k n) (cross (vsub p z) (vsub b z))) by (unfold uw; spec_unfold; ring). exact Tz. }
  assert (X2 : 0 <= k * uv). { replace (k * uv) with (dot (vscale k n) (cross (vsub b p) (vsub v p))) by (unfold uv; spec_unfold; ring). exact E1. }
  assert (X3 : 0 <= k * vw). { replace (k * vw) with (dot (vscale k n) (cross (vsub p z) (vsub v z))) by (unfold vw; spec_unfold; ring). exact E2. }
  destruct (cross_plane n (vsub b p) (vsub z p) Fb Fz (unit_nz n Un)) as (s & S).
  assert (Dz : dot (cross (vsub b p) (vsub z p)) (vsub v p) = 0) by (rewrite S; replace (dot (vscale s n) (vsub v p)) with (s * dot n (vsub v p)) by (spec_unfold; ring); rewrite Fv; ring).
  assert (ID : vscale uw (vsub v p) = vadd (vadd (vscale vw (vsub b p)) (vscale uv (vsub z p))) (vscale (dot (cross (vsub b p) (vsub z p)) (vsub v p)) n)).
  { unfold uw, uv, vw. apply vec3_ext; spec_unfold; ring. }
  rewrite Dz in ID. assert (ID' : vscale uw (vsub v p) = vadd (vscale vw (vsub b p)) (vscale uv (vsub z p))) by (rewrite ID; apply vec3_ext; spec_unfold; ring). clear ID.
  assert (GI : vw * dot g (vsub b p) + uv * dot g (vsub z p) = 0).
  { replace (vw * dot g (vsub b p) + uv * dot g (vsub z p)) with (dot g (vadd (vscale vw (vsub b p)) (vscale uv (vsub z p)))) by (generalize uv vw; intros; spec_unfold; ring).
    rewrite <- ID'. replace (dot g (vscale uw (vsub v p))) with (uw * dot g (vsub v p)) by (generalize uw; intros; spec_unfold; ring). rewrite Z. ring. }
  destruct (Req_dec (dot g (vsub b p)) 0) as [B|B]; [exists p, b; split; assumption|]. destruct (Req_dec (dot g (vsub z p)) 0) as [C|C].
  { exists z, p. split; [exact Jz|]. spec_unfold. lra. }
  exfalso. apply NE. assert (KI : (k * vw) * dot g (vsub b p) + (k * uv) * dot g (vsub z p) = 0) by (replace ((k * vw) * dot g (vsub b p) + (k * uv) * dot g (vsub z p)) with (k * (vw * dot g (vsub b p) + uv * dot g (vsub z p))) by ring; rewrite GI; ring).
  assert (V1 : k * vw = 0) by nra. assert (V2 : k * uv = 0) by nra.
  apply Rmult_integral in V1. apply Rmult_integral in V2. destruct V1 as [V1|V1]; [contradiction|]. destruct V2 as [V2|V2]; [contradiction|].
  rewrite V1, V2 in ID'. assert (uw <> 0) by (intros U; rewrite U in X1; lra).
  apply vec3_ext; [apply (f_equal vx) in ID'|apply (f_equal vy) in ID'|apply (f_equal vz) in ID']; revert ID'; generalize uw, H0; intros u Hu ID'; unfold vscale, vadd, vsub in ID'; cbn [vx vy vz] in ID'; nra.
Qed.
(** ** turning a rectangle *)
Variable e : vec3.
Hypothesis Ue : dot e e = 1.
Hypothesis Ne : dot n e = 0.
Let f := cross n e.
Lemma cross_nf : cross n f = vneg e.
Proof. assert (X : cross n f = vsub (vscale (dot n e) n) (vscale (dot n n) e)) by (unfold f; vring). rewrite X, Ne, Un. vring. Qed.
Lemma uf : dot f f = 1.
Proof. assert (X : dot f f = dot n n * dot e e - dot n e * dot n e) by (unfold f; spec_unfold; ring). rewrite X, Un, Ue, Ne. ring. Qed.
Lemma nf : dot n f = 0. Proof. unfold f. spec_unfold. ring. Qed.
Lemma ef : dot e f = 0. Proof. unfold f. spec_unfold. ring. Qed.
Lemma not_flat x0 : List.In x0 L -> ~ (forall x y, List.In x L -> List.In y L -> dot f (vsub x y) = 0).
Proof.
  intros I0 H. destruct normal_along as (k & Kz & EM). destruct CL as (H3 & _ & E & T). destruct (loop_next L x0 I0) as (b & J).
  destruct (loop_turn_of_edge L x0 b H3 J) as (_ & (c & K)). destruct (loop_edge_of_turn _ _ _ _ K) as (J1 & J2). destruct (loop_edge_in _ _ _ J2) as (Ib & Ic).
  apply T in K. rewrite EM in K. pose proof (H b x0 Ib I0) as Z1. pose proof (H c x0 Ic I0) as Z2.
  assert (X : dot n (cross (vsub b x0) (vsub c x0)) = 0).
  { assert (EN : cross e f = n). { assert (X : cross e f = vsub (vscale (dot e e) n) (vscale (dot n e) e)) by (unfold f; vring). rewrite X, Ue, Ne. vring. }
    rewrite <- EN. replace (dot (cross e f) (cross (vsub b x0) (vsub c x0))) with (dot e (vsub b x0) * dot f (vsub c x0) - dot e (vsub c x0) * dot f (vsub b x0)) by (generalize f; intros; spec_unfold; ring).
    rewrite Z1, Z2. ring. }
  replace (dot (vscale k n) (cross (vsub b x0) (vsub c x0))) with (k * dot n (cross (vsub b x0) (vsub c x0))) in K by (spec_unfold; ring). rewrite X in K. lra.
Qed.
Let g1 (t : R) := vadd e (vscale t f).
Let g2 (t : R) := vsub f (vscale t e).
Definition framed (p1 p0 q1 q0 : vec3) (t : R) : Prop := forall x, List.In x L ->
  dot (g1 t) (vsub x p1) <= 0 /\ dot (g1 t) (vsub p0 x) <= 0 /\ dot (g2 t) (vsub x q1) <= 0 /\ dot (g2 t) (vsub q0 x) <= 0.
Definition resting (t : R) : Prop := exists a b, loop_edge L a b /\ (dot (g1 t) (vsub b a) = 0 \/ dot (g2 t) (vsub b a) = 0).
Lemma dg1 t v : dot (g1 t) v = dot e v + t * dot f v. Proof. unfold g1. generalize f. intros. spec_unfold. ring. Qed.
Lemma dg2 t v : dot (g2 t) v = dot f v - t * dot e v. Proof. unfold g2. generalize f. intros. spec_unfold. ring. Qed.
Lemma ng1 t : dot n (g1 t) = 0. Proof. rewrite dot_comm, dg1, (dot_comm e), (dot_comm f), Ne, nf. ring. Qed.
Lemma ng2 t : dot n (g2 t) = 0. Proof. rewrite dot_comm, dg2, (dot_comm e), (dot_comm f), Ne, nf. ring. Qed.
Lemma dsub (d x y : vec3) : dot d (vsub x y) = dot d x - dot d y. Proof. spec_unfold. ring. Qed.
Lemma tie1 t p v : List.In p L -> List.In v L -> p <> v -> (forall x, List.In x L -> dot (g1 t) (vsub x p) <= 0) -> dot (g1 t) (vsub v p) = 0 -> resting t.
Proof. intros A B C D E. destruct (support_edge (g1 t) p v (ng1 t) A B C D E) as (a & b & J & Z). exists a, b. split; [exact J|left; exact Z]. Qed.
Lemma tie1' t p v : List.In p L -> List.In v L -> p <> v -> (forall x, List.In x L -> dot (g1 t) (vsub p x) <= 0) -> dot (g1 t) (vsub v p) = 0 -> resting t.
Proof.
  intros A B C D E. destruct (support_edge (vneg (g1 t)) p v) as (a & b & J & Z); try assumption.
  - pose proof (ng1 t). unfold vneg. spec_unfold. lra.
  - intros x I. specialize (D x I). unfold vneg. spec_unfold. lra.
  - unfold vneg. spec_unfold. lra.
  - exists a, b. split; [exact J|left]. unfold vneg in Z. spec_unfold. lra.
Qed.
Lemma tie2 t p v : List.In p L -> List.In v L -> p <> v -> (forall x, List.In x L -> dot (g2 t) (vsub x p) <= 0) -> dot (g2 t) (vsub v p) = 0 -> resting t.
Proof. intros A B C D E. destruct (support_edge (g2 t) p v (ng2 t) A B C D E) as (a & b & J & Z). exists a, b. split; [exact J|right; exact Z]. Qed.
Lemma tie2' t p v : List.In p L -> List.In v L -> p <> v -> (forall x, List.In x L -> dot (g2 t) (vsub p x) <= 0) -> dot (g2 t) (vsub v p) = 0 -> resting t.
Proof.
  intros A B C D E. destruct (support_edge (vneg (g2 t)) p v) as (a & b & J & Z); try assumption.
  - pose proof (ng2 t). unfold vneg. spec_unfold. lra.
  - intros x I. specialize (D x I). unfold vneg. spec_unfold. lra.
  - unfold vneg. spec_unfold. lra.
  - exists a, b. split; [exact J|right]. unfold vneg in Z. spec_unfold. lra.
Qed.
Lemma turning p1 p0 q1 q0 sg : List.In p1 L -> List.In p0 L -> List.In q1 L -> List.In q0 L -> framed p1 p0 q1 q0 0 -> (sg = 1 \/ sg = -1) ->
  exists t, 0 <= t /\ framed p1 p0 q1 q0 (sg * t) /\ resting (sg * t).
Proof.
  intros I1 I0 K1 K0 H S.
  set (F := flat_map (fun v => [(dot e (vsub p1 v), sg * dot f (vsub p1 v)); (dot e (vsub v p0), sg * dot f (vsub v p0));
                                (dot f (vsub q1 v), - sg * dot e (vsub q1 v)); (dot f (vsub v q0), - sg * dot e (vsub v q0))]) L).
  assert (IN : forall g, List.In g F <-> exists v, List.In v L /\ (g = (dot e (vsub p1 v), sg * dot f (vsub p1 v)) \/ g = (dot e (vsub v p0), sg * dot f (vsub v p0)) \/
                                g = (dot f (vsub q1 v), - sg * dot e (vsub q1 v)) \/ g = (dot f (vsub v q0), - sg * dot e (vsub v q0)))).
  { intros g. unfold F. rewrite in_flat_map. split; intros (v & I & J); exists v; (split; [exact I|]); cbn [List.In] in *; intuition auto. }
  assert (P : forall g, List.In g F -> 0 <= fst g).
  { intros g I. apply IN in I. destruct I as (v & I & J). destruct (H v I) as (H1 & H2 & H3 & H4). rewrite dg1, dsub in H1, H2. rewrite dg2, dsub in H3, H4. rewrite !dsub in H1, H2, H3, H4.
    destruct J as [ -> |[ -> |[ -> | -> ]]]; cbn [fst]; rewrite dsub; lra. }
  destruct (first_tight F P) as [Q|(t & T & Q & (g & I & N & Z))].
  - exists 0. split; [lra|]. replace (sg * 0) with 0 by ring. split; [exact H|].
    assert (Q1 : forall v, List.In v L -> 0 <= sg * dot f (vsub p1 v)) by (intros v I; apply (Q (dot e (vsub p1 v), sg * dot f (vsub p1 v))), IN; exists v; auto).
    assert (Q3 : forall v, List.In v L -> 0 <= - sg * dot e (vsub q1 v)) by (intros v I; apply (Q (dot f (vsub q1 v), - sg * dot e (vsub q1 v))), IN; exists v; auto).
    assert (Q4 : forall v, List.In v L -> 0 <= - sg * dot e (vsub v q0)) by (intros v I; apply (Q (dot f (vsub v q0), - sg * dot e (vsub v q0))), IN; exists v; auto 6).
    assert (Hx : forall v, List.In v L -> dot (g1 0) (vsub v p1) <= 0) by (intros v I; apply (H v I)).
    assert (M : forall q, List.In q L -> (forall v, List.In v L -> dot e v <= dot e q) -> q <> p1 -> resting 0).
    { intros q Iq M NE. apply (tie1 0 p1 q I1 Iq); [congruence|exact Hx|]. pose proof (Hx q Iq) as A. rewrite dg1, !dsub in A. rewrite dg1, !dsub. specialize (M p1 I1). lra. }
    destruct S as [ -> | -> ].
    + destruct (Req_dec (dist q0 p1) 0) as [Z|Z].
      * exfalso. assert (E : q0 = p1). { unfold dist in Z. apply norm_zero_iff in Z. apply vec3_ext; [apply (f_equal vx) in Z|apply (f_equal vy) in Z|apply (f_equal vz) in Z]; unfold vsub, v3zero in Z; cbn in Z; lra. } subst q0.
        apply (not_flat p1 I1). intros x y X Y. destruct (H x X) as (_ & _ & _ & A). destruct (H y Y) as (_ & _ & _ & B). pose proof (Q1 x X). pose proof (Q1 y Y). rewrite dg2, !dsub in A, B. rewrite !dsub in *. lra.
      * apply (M q0 K0); [intros v I; specialize (Q4 v I); rewrite dsub in Q4; lra|]. intros ->. apply Z. unfold dist. apply norm_zero_iff. unfold vsub, v3zero. apply vec3_ext; cbn; ring.
    + destruct (Req_dec (dist q1 p1) 0) as [Z|Z].
      * exfalso. assert (E : q1 = p1). { unfold dist in Z. apply norm_zero_iff in Z. apply vec3_ext; [apply (f_equal vx) in Z|apply (f_equal vy) in Z|apply (f_equal vz) in Z]; unfold vsub, v3zero in Z; cbn in Z; lra. } subst q1.
        apply (not_flat p1 I1). intros x y X Y. destruct (H x X) as (_ & _ & A & _). destruct (H y Y) as (_ & _ & B & _). pose proof (Q1 x X). pose proof (Q1 y Y). rewrite dg2, !dsub in A, B. rewrite !dsub in *. lra.
      * apply (M q1 K1); [intros v I; specialize (Q3 v I); rewrite dsub in Q3; lra|]. intros ->. apply Z. unfold dist. apply norm_zero_iff. unfold vsub, v3zero. apply vec3_ext; cbn; ring.
  - exists t. split; [exact T|]. assert (FR : framed p1 p0 q1 q0 (sg * t)).
    { intros v J. pose proof (Q (dot e (vsub p1 v), sg * dot f (vsub p1 v))) as A1. pose proof (Q (dot e (vsub v p0), sg * dot f (vsub v p0))) as A2.
      pose proof (Q (dot f (vsub q1 v), - sg * dot e (vsub q1 v))) as A3. pose proof (Q (dot f (vsub v q0), - sg * dot e (vsub v q0))) as A4. cbn [fst snd] in *.
      assert (B1 := A1 ltac:(apply IN; exists v; auto)). assert (B2 := A2 ltac:(apply IN; exists v; auto)). assert (B3 := A3 ltac:(apply IN; exists v; auto)). assert (B4 := A4 ltac:(apply IN; exists v; auto 6)).
      rewrite !dg1, !dg2, !dsub. rewrite !dsub in B1, B2, B3, B4. repeat split; lra. }
    split; [exact FR|]. apply IN in I. destruct I as (v & J & C).
    assert (NE : forall q, List.In q L -> (snd g = sg * dot f (vsub q v) \/ snd g = sg * dot f (vsub v q) \/ snd g = - sg * dot e (vsub q v) \/ snd g = - sg * dot e (vsub v q)) -> q <> v).
    { intros q _ D ->. rewrite !dsub in D. assert (snd g = 0) by (destruct D as [D|[D|[D|D]]]; rewrite D; ring). lra. }
    destruct C as [ -> |[ -> |[ -> | -> ]]]; cbn [fst snd] in *; rewrite !dsub in Z.
    + apply (tie1 _ p1 v I1 J); [apply (NE p1 I1); auto|intros x X; apply (FR x X)|rewrite dg1, !dsub; lra].
    + apply (tie1' _ p0 v I0 J); [apply (NE p0 I0); auto|intros x X; apply (FR x X)|rewrite dg1, !dsub; lra].
    + apply (tie2 _ q1 v K1 J); [apply (NE q1 K1); auto|intros x X; apply (FR x X)|rewrite dg2, !dsub; lra].
    + apply (tie2' _ q0 v K0 J); [apply (NE q0 K0); auto 6|intros x X; apply (FR x X)|rewrite dg2, !dsub; lra].
Qed.
Lemma cross_g1 t : cross n (g1 t) = g2 t.
Proof. assert (X : cross n (g1 t) = vadd (cross n e) (vscale t (cross n f))) by (unfold g1; generalize f; intros; vring). rewrite X, cross_nf. fold f. unfold g2. generalize f. intros. vring. Qed.
Lemma cross_g2 t : cross n (g2 t) = vneg (g1 t).
Proof. assert (X : cross n (g2 t) = vsub (cross n f) (vscale t (cross n e))) by (unfold g2; generalize f; intros; vring). rewrite X, cross_nf. fold f. unfold g1. generalize f. intros. vring. Qed.
Lemma gg t : dot (g1 t) (g1 t) = 1 + t * t /\ dot (g2 t) (g2 t) = 1 + t * t /\ dot (g1 t) (g2 t) = 0.
Proof.
  pose proof uf as A. pose proof ef as B. rewrite dg1, dg2, dg1. rewrite (dot_comm e (g1 t)), (dot_comm f (g1 t)), (dot_comm e (g2 t)), (dot_comm f (g2 t)), !dg1, !dg2, (dot_comm f e), A, B, Ue. repeat split; ring.
Qed.
(** a vector in the plane across g1 is along g2 and conversely *)
Lemma basis t u : dot n u = 0 -> vscale (1 + t * t) u = vadd (vscale (dot (g1 t) u) (g1 t)) (vscale (dot (g2 t) u) (g2 t)).
Proof.
  intros H. rewrite !dg1, !dg2. unfold g1, g2.
  assert (X : u = vadd (vscale (dot e u) e) (vscale (dot f u) f)).
  { assert (Y : vadd (vadd (vscale (dot e u) e) (vscale (dot f u) f)) (vscale (dot n u) n) = vadd (vscale (dot n n * dot e e - dot n e * dot n e) u) (vadd (vscale (dot e u * (1 - dot n n) + dot n u * dot n e) e) (vscale (dot n u * (1 - dot e e) + dot n e * dot e u) n))).
    { unfold f. apply vec3_ext; spec_unfold; ring. }
    rewrite Un, Ue, Ne, H in Y. transitivity (vadd (vadd (vscale (dot e u) e) (vscale (dot f u) f)) (vscale 0 n)); [rewrite Y; vring|vring]. }
  rewrite X at 1. generalize (dot e u), (dot f u), f. intros. vring.
Qed.
Lemma resting_area p1 p0 q1 q0 t we wf : List.In p1 L -> List.In p0 L -> List.In q1 L -> List.In q0 L -> framed p1 p0 q1 q0 t -> resting t ->
  dot (g1 t) (vsub p1 p0) * dot (g2 t) (vsub q1 q0) <= we * wf * (1 + t * t) ->
  exists a b, loop_edge L a b /\ forall w1 w2, extent (vsub b a) L w1 -> extent (cross n (vsub b a)) L w2 -> w1 * w2 <= we * wf * dot (vsub b a) (vsub b a).
Proof.
  intros I1 I0 K1 K0 FR (a & b & J & C) B. exists a, b. split; [exact J|]. intros w1 w2 X1 X2. destruct (loop_edge_in _ _ _ J) as (Ia & Ib).
  assert (E1 : extent (g1 t) L (dot (g1 t) (vsub p1 p0))).
  { exists p1, p0. repeat split; try assumption. intros x y X Y. destruct (FR x X) as (A & _). destruct (FR y Y) as (_ & A' & _). rewrite !dsub in *. lra. }
  assert (E2 : extent (g2 t) L (dot (g2 t) (vsub q1 q0))).
  { exists q1, q0. repeat split; try assumption. intros x y X Y. destruct (FR x X) as (_ & _ & A & _). destruct (FR y Y) as (_ & _ & _ & A'). rewrite !dsub in *. lra. }
  set (u := vsub b a) in *. assert (Nu : dot n u = 0) by (apply Fl; assumption). pose proof (basis t u Nu) as BA. assert (TT : 0 < 1 + t * t) by nra.
  destruct (gg t) as (G1 & G2 & _). set (x1 := dot (g1 t) (vsub p1 p0)) in *. set (x2 := dot (g2 t) (vsub q1 q0)) in *.
  assert (AB : forall k, Rabs k * Rabs k = k * k) by (intros k; unfold Rabs; destruct (Rcase_abs k); ring).
  assert (SC : forall k k' x, Rabs k * (Rabs k' * x) = Rabs (k * k') * x) by (intros; rewrite Rabs_mult; ring).
  destruct C as [C|C]; rewrite C in BA.
  - assert (U : u = vscale (dot (g2 t) u / (1 + t * t)) (g2 t)).
    { transitivity (vscale (/ (1 + t * t)) (vscale (1 + t * t) u)); [apply vec3_ext; unfold vscale; cbn [vx vy vz]; field; lra|]. rewrite BA. generalize (g1 t), (g2 t). intros. unfold vadd, vscale. apply vec3_ext; cbn [vx vy vz]; field; lra. }
    set (k := dot (g2 t) u / (1 + t * t)) in *. clearbody u k. subst u.
    assert (W1 : w1 = Rabs k * x2) by (eapply extent_unique; [exact X1|apply extent_scale, E2]).
    assert (W2 : w2 = Rabs k * x1). { eapply extent_unique; [exact X2|]. replace (cross n (vscale k (g2 t))) with (vscale (- k) (g1 t)); [rewrite <- (Rabs_Ropp k); apply extent_scale, E1|]. transitivity (vscale k (cross n (g2 t))); [rewrite cross_g2; vring|vring]. }
    replace (dot (vscale k (g2 t)) (vscale k (g2 t))) with (k * k * dot (g2 t) (g2 t)) by (generalize (g2 t); intros; spec_unfold; ring). rewrite W1, W2, G2, <- (AB k).
    assert (0 <= Rabs k * Rabs k) by (rewrite AB; nra). nra.
  - assert (U : u = vscale (dot (g1 t) u / (1 + t * t)) (g1 t)).
    { transitivity (vscale (/ (1 + t * t)) (vscale (1 + t * t) u)); [apply vec3_ext; unfold vscale; cbn [vx vy vz]; field; lra|]. rewrite BA. generalize (g1 t), (g2 t). intros. unfold vadd, vscale. apply vec3_ext; cbn [vx vy vz]; field; lra. }
    set (k := dot (g1 t) u / (1 + t * t)) in *. clearbody u k. subst u.
    assert (W1 : w1 = Rabs k * x1) by (eapply extent_unique; [exact X1|apply extent_scale, E1]).
    assert (W2 : w2 = Rabs k * x2). { eapply extent_unique; [exact X2|]. replace (cross n (vscale k (g1 t))) with (vscale k (g2 t)); [apply extent_scale, E2|]. transitivity (vscale k (cross n (g1 t))); [rewrite cross_g1; reflexivity|vring]. }
    replace (dot (vscale k (g1 t)) (vscale k (g1 t))) with (k * k * dot (g1 t) (g1 t)) by (generalize (g1 t); intros; spec_unfold; ring). rewrite W1, W2, G1, <- (AB k).
    assert (0 <= Rabs k * Rabs k) by (rewrite AB; nra). nra.
Qed.
Lemma calipers we wf : extent e L we -> extent (cross n e) L wf ->
  exists a b, loop_edge L a b /\ forall w1 w2, extent (vsub b a) L w1 -> extent (cross n (vsub b a)) L w2 -> w1 * w2 <= we * wf * dot (vsub b a) (vsub b a).
Proof.
  intros X1 X2. pose proof (extent_nonneg _ _ _ X1) as W1. pose proof (extent_nonneg _ _ _ X2) as W2.
  destruct X1 as (p1 & p0 & I1 & I0 & E1 & H1). destruct X2 as (q1 & q0 & K1 & K0 & E2 & H2). fold f in E2, H2.
  assert (F0 : framed p1 p0 q1 q0 0).
  { intros x X. rewrite !dg1, !dg2. pose proof (H1 x p0 X I0). pose proof (H1 p1 x I1 X). pose proof (H2 x q0 X K0). pose proof (H2 q1 x K1 X). rewrite !dsub in *. repeat split; lra. }
  destruct (turning p1 p0 q1 q0 1 I1 I0 K1 K0 F0) as (t & T & FT & RT); [left; reflexivity|]. destruct (turning p1 p0 q1 q0 (-1) I1 I0 K1 K0 F0) as (s & S & FS & RS); [right; reflexivity|].
  replace (1 * t) with t in * by ring. replace (-1 * s) with (- s) in * by ring.
  assert (PT : forall r, framed p1 p0 q1 q0 r -> 0 <= dot (g1 r) (vsub p1 p0) /\ 0 <= dot (g2 r) (vsub q1 q0)).
  { intros r FR. destruct (FR p0 I0) as (A & _). destruct (FR q0 K0) as (_ & _ & B & _). rewrite !dsub in *. lra. }
  destruct (PT t FT) as (A1 & A2). destruct (PT (- s) FS) as (A3 & A4). rewrite dg1 in A1, A3. rewrite dg2 in A2, A4. rewrite <- E1 in A1, A3. rewrite <- E2 in A2, A4.
  destruct (area_quotient we (dot f (vsub p1 p0)) wf (- dot e (vsub q1 q0)) s t W1 W2 S T) as [Q|Q]; try lra.
  - apply (resting_area p1 p0 q1 q0 t we wf I1 I0 K1 K0 FT RT). rewrite dg1, dg2, <- E1, <- E2. lra.
  - apply (resting_area p1 p0 q1 q0 (- s) we wf I1 I0 K1 K0 FS RS). rewrite dg1, dg2, <- E1, <- E2. lra.
Qed.
End Plane.

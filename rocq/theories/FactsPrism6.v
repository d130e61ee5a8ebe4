(** Prisms and pyramids over convex loops. *)
From Coq Require Import Permutation.
From Verif Require Import Base SpecClip SpecMesh ModelPrism FactsVec FactsAlg FactsElem FactsClip FactsClip2 FactsClip3 FactsClip4 FactsPH FactsPH2 FactsPH4 FactsMesh5 FactsTri2 FactsPrism FactsPrism2 FactsPrism3 FactsPrism4 FactsPrism5.
From Coq Require Import List Lia Lra.
Import ListNotations.
Open Scope R_scope.

(** ** ear clipping of a convex loop does not get stuck *)
Lemma cuttable_pos k m u v x o : 0 < k -> cuttable (vscale k m) u v x o -> cuttable m u v x o.
Proof. intros K (A & B). split; [|exact B]. rewrite spin_scale in A. nra. Qed.
Lemma reduces_pos k m l ts l' : 0 < k -> reduces (vscale k m) l ts l' -> reduces m l ts l'.
Proof. intros K. induction 1 as [l|l u v x o l1 ts l' C E H IH]; [constructor|]. econstructor; [exact C|eapply cuttable_pos; eassumption|exact IH]. Qed.
Lemma earless_pos k m l : 0 < k -> earless (vscale k m) l -> earless m l.
Proof. intros K (L & H). split; [exact L|]. intros u v x o l1 T (A & B & C). apply (H u v x o l1 T). split; [rewrite spin_scale; nra|auto]. Qed.
Lemma corner_turn m l i : convex_order m l -> (3 <= length l)%nat -> (i < length l)%nat -> 0 < dot m (corner_normal l i).
Proof.
  intros H L I. unfold corner_normal. cbv zeta. pose proof zTOL_pos as T. set (n := length l) in *.
  assert (G : forall a b c, (a < b < c)%nat -> (c < n)%nat -> 0 < spin m (nth a l v3zero) (nth b l v3zero) (nth c l v3zero)) by (intros a b c X Y; destruct (H a b c X Y) as (S & _); cbv zeta in S; lra).
  change (dot m (cross (vsub ?b ?a) (vsub ?c ?a))) with (spin m a b c). fold (spin m (nth i l v3zero) (nth ((i + 1) mod n) l v3zero) (nth ((i + n - 1) mod n) l v3zero)).
  assert (i = 0 \/ (0 < i /\ i = n - 1) \/ (0 < i < n - 1))%nat as [->|[(P & E)|P]] by lia.
  - rewrite Nat.mod_small by lia. replace ((0 + n - 1) mod n)%nat with (n - 1)%nat by (rewrite Nat.mod_small; lia). apply G; lia.
  - replace ((i + 1) mod n)%nat with 0%nat by (replace (i + 1)%nat with n by lia; rewrite Nat.mod_same; lia). replace ((i + n - 1) mod n)%nat with (i - 1)%nat. 2:{ replace (i + n - 1)%nat with (i - 1 + 1 * n)%nat by lia. rewrite Nat.mod_add by lia. rewrite Nat.mod_small; lia. } rewrite <- spin_cycle. apply (Rlt_le_trans _ _ _ (G 0 (i - 1) i ltac:(lia) ltac:(lia)))%nat. right. reflexivity.
  - rewrite (Nat.mod_small (i + 1)) by lia. replace ((i + n - 1) mod n)%nat with (i - 1)%nat. 2:{ replace (i + n - 1)%nat with (i - 1 + 1 * n)%nat by lia. rewrite Nat.mod_add by lia. rewrite Nat.mod_small; lia. } rewrite (spin_cycle m (nth (i - 1) l v3zero)). apply G; lia.
Qed.
Lemma convex_free o m l : norm m = 1 -> planar o m l -> (3 <= length l)%nat -> convex_order m l -> ~ stuck l.
Proof.
  intros U P L H (i & ts & l' & Lm & R & E). destruct (corner_plane o m l i P) as (k & K); [apply Lm|]. rewrite K in R, E. pose proof (corner_turn m l i H L (proj1 Lm)) as S. rewrite K in S. replace (dot m (vscale k m)) with (k * (norm m * norm m)) in S by (rewrite norm_sqr; spec_unfold; ring). rewrite U in S.
  apply (convex_not_earless m l' U); [|apply (earless_pos k); [lra|exact E]]. eapply reduces_order; [apply (reduces_pos k); [lra|exact R]|exact H].
Qed.
Lemma fold_pos (l : list SpecClip.corners) (f : SpecClip.corners -> R) : l <> [] -> (forall t, List.In t l -> 0 < f t) -> 0 < fold_right (fun t s => f t + s) 0 l.
Proof. induction l as [|t r IH]; [congruence|]. intros _ H. cbn [fold_right]. pose proof (H t (or_introl eq_refl)). destruct r as [|t' r]; [cbn; lra|]. assert (0 < fold_right (fun t s => f t + s) 0 (t' :: r)) by (apply IH; [discriminate|intros; apply H; right; assumption]). lra. Qed.
Lemma convex_area o m l : norm m = 1 -> planar o m l -> (3 <= length l)%nat -> convex_order m l -> 0 < loop_area m l.
Proof.
  intros U P L H. destruct (triangulate_convex o m l U P L H) as (ts & _ & C & (Q & A & _)). rewrite A. apply fold_pos; [destruct ts; [cbn in C; lia|discriminate]|]. intros ((a, b), c) I. apply (Q a b c I).
Qed.
(** ** the interior as the points below all faces *)
Definition hgt (vs : list vec3) (f : nat * nat * nat) (p : vec3) : R := let '(a, b, c) := f in dot (vsub p (vertAt vs a)) (tri_normal (vertAt vs a) (vertAt vs b) (vertAt vs c)).
Definition firm (vs : list vec3) (f : nat * nat * nat) : Prop := let '(a, b, c) := f in ~ negligible (tri_normal (vertAt vs a) (vertAt vs b) (vertAt vs c)).
Lemma hgt_turned vs f p : hgt vs (turned f) p = - hgt vs f p.
Proof. destruct f as ((a, b), c). cbn. unfold tri_normal. generalize (vertAt vs a) (vertAt vs b) (vertAt vs c). intros. spec_unfold. ring. Qed.
Lemma neg_negligible v : negligible (vneg v) <-> negligible v.
Proof. unfold negligible, vneg. cbn. rewrite !Rabs_Ropp. tauto. Qed.
Lemma firm_turned vs f : firm vs (turned f) <-> firm vs f.
Proof. destruct f as ((a, b), c). cbn. replace (tri_normal (vertAt vs a) (vertAt vs c) (vertAt vs b)) with (vneg (tri_normal (vertAt vs a) (vertAt vs b) (vertAt vs c))); [rewrite neg_negligible; tauto|]. unfold tri_normal. generalize (vertAt vs a) (vertAt vs b) (vertAt vs c). intros. vring. Qed.
Lemma inside_hgt ph p : valid_ph ph -> fresh ph -> (forall f, List.In f (ph_faces ph) -> firm (pverts ph) f) ->
  (zPH3DPointIsInside ph p 0 = Some true <-> forall f, List.In f (ph_faces ph) -> hgt (pverts ph) f p < 0).
Proof.
  intros V F N. assert (S : sound_ph ph). { split; [exact V|]. split; [exact F|]. apply Forall_forall. intros f I. exact (N _ (in_map (fun f => (fi0 f, fi1 f, fi2 f)) _ _ I)). }
  destruct (convex_inside ph p 0 S) as (b & E & B & _). rewrite E. assert (Q : (forall t, List.In t (solid_tris ph) -> FactsPH4.height t p < 0 * norm (tri_normal (tv0 t) (tv1 t) (tv2 t))) <-> forall f, List.In f (ph_faces ph) -> hgt (pverts ph) f p < 0).
  { unfold solid_tris, ph_faces. split; intros H x I; apply in_map_iff in I; destruct I as (f & <- & I).
    - specialize (H _ (in_map (tri_at (pverts ph)) _ _ I)). rewrite Rmult_0_l in H. exact H.
    - specialize (H _ (in_map (fun f => (fi0 f, fi1 f, fi2 f)) _ _ I)). rewrite Rmult_0_l. exact H. }
  rewrite <- Q, <- B. split; [intros X; injection X; auto|intros ->; reflexivity].
Qed.
Lemma spin_big m a b c : norm m = 1 -> 2 * zTOL <= Rabs (spin m a b c) -> ~ negligible (tri_normal a b c).
Proof.
  intros U S N. apply below_norm in N. assert (Q : Rabs (spin m a b c) <= norm (tri_normal a b c)). { pose proof (dot_le_norm m (cross (vsub b a) (vsub c a))) as A. pose proof (dot_le_norm (vneg m) (cross (vsub b a) (vsub c a))) as B. unfold tri_normal. rewrite U in A. assert (norm (vneg m) = 1) as Un by (rewrite <- U; unfold norm; f_equal; spec_unfold; ring). rewrite Un in B. unfold spin. apply Rabs_le. replace (dot (vneg m) (cross (vsub b a) (vsub c a))) with (- dot m (cross (vsub b a) (vsub c a))) in B by (spec_unfold; ring). lra. }
  lra.
Qed.
Lemma spin_perm m a b c : spin m a c b = - spin m a b c. Proof. unfold spin. spec_unfold. ring. Qed.
Lemma order_big m l a b c : convex_order m l -> (a < length l)%nat -> (b < length l)%nat -> (c < length l)%nat -> a <> b -> b <> c -> a <> c -> 2 * zTOL <= Rabs (spin m (nth a l v3zero) (nth b l v3zero) (nth c l v3zero)).
Proof.
  intros H A B C AB BC AC. pose proof zTOL_pos as T. assert (G : forall i j k, (i < j < k)%nat -> (k < length l)%nat -> 2 * zTOL <= Rabs (spin m (nth i l v3zero) (nth j l v3zero) (nth k l v3zero))) by (intros i j k X Y; destruct (H i j k X Y) as (S & _); cbv zeta in S; rewrite Rabs_right; lra).
  assert (Pm : forall x y z, Rabs (spin m x y z) = Rabs (spin m x z y)) by (intros; rewrite (spin_perm m x z y), Rabs_Ropp; reflexivity).
  destruct (Nat.lt_ge_cases a b), (Nat.lt_ge_cases b c), (Nat.lt_ge_cases a c); try lia; first [apply G; lia | rewrite Pm; apply G; lia | rewrite <- spin_cycle; apply G; lia | rewrite <- spin_cycle, Pm; apply G; lia | rewrite <- spin_cycle, <- spin_cycle; apply G; lia | rewrite <- spin_cycle, <- spin_cycle, Pm; apply G; lia].
Qed.


Lemma nxt_mod n i : (i < n)%nat -> nxt n i = ((i + 1) mod n)%nat.
Proof. intros I. destruct (nxt_cases n i I) as [(-> & L)|(-> & L)]; [rewrite Nat.mod_small; lia|]. replace (i + 1)%nat with n by lia. rewrite Nat.mod_same; lia. Qed.
Lemma nxt_lt n i : (i < n)%nat -> (nxt n i < n)%nat. Proof. intros I. destruct (nxt_cases n i I); lia. Qed.
Section Convex.
Variables (o m : vec3) (l : list vec3).
Hypothesis U : norm m = 1.
Hypothesis P : planar o m l.
Hypothesis N3 : (3 <= length l)%nat.
Hypothesis H : convex_order m l.
Notation n := (length l).
Notation A := (loop_area m l).
Lemma planar_sh z : planar (vadd o z) m (map (sh z) l).
Proof. destruct P as (Z & Q). split; [exact Z|]. intros p I. apply in_map_iff in I. destruct I as (q & <- & I). replace (vsub (sh z q) (vadd o z)) with (vsub q o); [apply Q, I|]. unfold sh. clear. destruct q, o, z. vring. Qed.
Lemma cut_facts vs base z k ts rest : (forall i, (i < n)%nat -> vertAt vs (base + i)%nat = vadd (nth i l v3zero) z) -> cutsN vs (vscale k m) (seq base n) ts rest -> (length rest <= 2)%nat -> ts <> [] ->
  forall f, List.In f ts -> firm vs f /\ exists e, 0 < e /\ forall p, hgt vs f p = e * (dot m (vsub p o) - dot m z).
Proof.
  intros V C R Ne ((a, b), c) I. assert (E : map (vertAt vs) (seq base n) = map (sh z) l).
  { apply (nth_ext _ _ v3zero v3zero); [rewrite !map_length, seq_length; reflexivity|]. intros i Li. rewrite map_length, seq_length in Li. rewrite (nth_indep _ _ (vertAt vs 0)) by (rewrite map_length, seq_length; exact Li). rewrite map_nth, seq_nth by exact Li. rewrite V by exact Li. rewrite (nth_indep (map (sh z) l) v3zero (sh z v3zero)) by (rewrite map_length; exact Li). rewrite map_nth. reflexivity. }
  assert (Pl : planar (vadd o z) m (map (vertAt vs) (seq base n))) by (rewrite E; apply planar_sh). pose proof (convex_area o m l U P N3 H) as A0.
  pose proof (cut_sign vs _ m k _ ts rest Pl C R Ne a b c I) as S. rewrite E, area_sh in S. assert (S0 : 0 < spin m (vertAt vs a) (vertAt vs b) (vertAt vs c)) by nra.
  pose proof (cut_normal vs _ m k _ ts rest U Pl C a b c I) as G. pose proof (cut_in vs _ m k _ ts rest Pl C a b c I) as (_ & Da & _).
  assert (T : tri_normal (vertAt vs a) (vertAt vs b) (vertAt vs c) = vscale (spin m (vertAt vs a) (vertAt vs b) (vertAt vs c)) m) by (rewrite <- G; rewrite tri_normal_alt; reflexivity).
  split.
  - cbn [firm]. apply (spin_big m _ _ _ U). destruct (cutsN_in _ _ _ _ _ C a b c I) as (Ia & Ib & Ic). pose proof (cutsN_proper _ _ _ _ _ C (seq_NoDup _ _)) as Pr. apply (proj1 (Forall_forall _ _) Pr) in I. cbn in I. apply in_seq in Ia. apply in_seq in Ib. apply in_seq in Ic.
    replace a with (base + (a - base))%nat by lia. replace b with (base + (b - base))%nat by lia. replace c with (base + (c - base))%nat by lia. rewrite !V by lia.
    replace (spin m (vadd (nth (a - base) l v3zero) z) (vadd (nth (b - base) l v3zero) z) (vadd (nth (c - base) l v3zero) z)) with (spin m (nth (a - base) l v3zero) (nth (b - base) l v3zero) (nth (c - base) l v3zero)) by (unfold spin; spec_unfold; ring). apply order_big; [exact H|lia|lia|lia|lia|lia|lia].
  - exists (spin m (vertAt vs a) (vertAt vs b) (vertAt vs c)). split; [exact S0|]. intros p. cbn [hgt]. rewrite T. generalize (spin m (vertAt vs a) (vertAt vs b) (vertAt vs c)). intros e. revert Da. generalize (vertAt vs a). intros q Da.
    replace (dot (vsub p q) (vscale e m)) with (e * (dot m (vsub p o) - dot m z - dot m (vsub q (vadd o z)))) by (spec_unfold; ring). rewrite Da. ring.
Qed.
(** heights over a side wall *)
Lemma wall a b q s : dot m (vsub a o) = 0 -> dot m (vsub b o) = 0 -> dot m (vsub q o) = 0 -> dot (vsub q a) (cross (vsub b a) s) = - spin m a b q * dot m s.
Proof.
  intros Da Db Dq. assert (E : cross (vsub b a) (vsub q a) = vscale (spin m a b q) m). { apply unit_cross; [exact U| |]; [replace (dot m (vsub b a)) with (dot m (vsub b o) - dot m (vsub a o)) by (spec_unfold; ring)|replace (dot m (vsub q a)) with (dot m (vsub q o) - dot m (vsub a o)) by (spec_unfold; ring)]; lra. }
  replace (dot (vsub q a) (cross (vsub b a) s)) with (- dot s (cross (vsub b a) (vsub q a))) by (spec_unfold; ring). rewrite E. generalize (spin m a b q). intros e. spec_unfold. ring.
Qed.
Lemma corner_on i : (i < n)%nat -> dot m (vsub (nth i l v3zero) o) = 0. Proof. intros I. apply P, nth_In, I. Qed.
Lemma enclosed_spin q : enclosed o m l q <-> dot m (vsub q o) = 0 /\ forall i, (i < n)%nat -> 0 < spin m (nth i l v3zero) (nth (nxt n i) l v3zero) q.
Proof. unfold enclosed, side_of, spin. split; intros (Q & G); (split; [exact Q|]); intros i I; specialize (G i I); rewrite (nxt_mod n i I) in *; exact G. Qed.
Section Lift.
Variable s : vec3.
Hypothesis D : dot m s <> 0.
Hypothesis W : forall i, (i < n)%nat -> ~ negligible (cross (side_of l i) s).
Notation vs := (prismVerts l s).
Lemma pv_nth i : (i < n)%nat -> vertAt vs i = nth i l v3zero /\ vertAt vs (n + i)%nat = vadd (nth i l v3zero) s.
Proof. intros I. assert (E : vertAt vs i = nth i l v3zero) by (unfold prismVerts, vertAt; rewrite app_nth1 by exact I; reflexivity). split; [exact E|]. rewrite <- E. replace (n + i)%nat with (i + n)%nat by lia. eapply pv_at; eassumption. Qed.
Lemma mantle_hgt f : List.In f (mantle n) -> exists i, (i < n)%nat /\ firm vs f /\ forall p, hgt vs f p = dot (vsub p (nth i l v3zero)) (cross (vsub (nth (nxt n i) l v3zero) (nth i l v3zero)) s).
Proof.
  intros I. unfold mantle in I. apply in_flat_map in I. destruct I as (i & I & J). apply in_seq in I. exists i. assert (Li : (i < n)%nat) by lia. split; [exact Li|]. destruct (pv_nth i Li) as (Ea & Ec). destruct (pv_nth (nxt n i) (nxt_lt n i Li)) as (Eb & Ed). specialize (W i Li). unfold side_of in W. rewrite <- (nxt_mod n i Li) in W.
  rewrite Nat.add_comm in Ec, Ed. destruct J as [J|[J|[]]]; subst f; cbn [hgt firm]; rewrite ?Ea, ?Eb, ?Ec, ?Ed; revert W; generalize (nth i l v3zero) (nth (nxt n i) l v3zero); intros a b W.
  - replace (tri_normal a b (vadd b s)) with (cross (vsub b a) s) by (unfold tri_normal; destruct a, b, s; vring). auto.
  - replace (tri_normal a (vadd b s) (vadd a s)) with (cross (vsub b a) s) by (unfold tri_normal; destruct a, b, s; vring). auto.
Qed.
Lemma mantle_has i : (i < n)%nat -> List.In (i, nxt n i, nxt n i + n)%nat (mantle n).
Proof. intros I. apply in_flat_map. exists i. split; [apply in_seq; lia|left; reflexivity]. Qed.
Lemma prism_convex : exists ph, zPH3DCreatePrism l s = Some (Some ph) /\ oriented (ph_faces ph) /\ zPH3DVolume ph = Some (Rabs (dot m s) * A / 2) /\ 0 < A /\
  forall p, zPH3DPointIsInside ph p 0 = Some true <-> exists q t, enclosed o m l q /\ 0 < t < 1 /\ p = vadd q (vscale t s).
Proof.
  pose proof (convex_area o m l U P N3 H) as Ap. destruct (prism_main o m l s U P N3 D) as (ph & E & Ev & _ & Fr & [S|(Bl & _ & Or & Vo & _)]); [exfalso; exact (convex_free o m l U P N3 H S)|]. exists ph. split; [exact E|]. split; [exact Or|]. split; [rewrite Vo, (Rabs_right A) by lra; reflexivity|]. split; [exact Ap|].
  destruct (prism_core o m l s U P N3 D) as (ph' & E' & Ev' & _ & _ & C). assert (ph' = ph) by congruence. subst ph'. clear E'. destruct C as [S|(kb & kt & tb & tt & rb & rt & Cb & Rb & Nb & Ct & Rt & Nt & A0 & FF)]; [exfalso; exact (convex_free o m l U P N3 H S)|].
  pose proof (cut_facts vs 0 v3zero kb tb rb ltac:(intros i I; cbn [plus]; rewrite (proj1 (pv_nth i I)); generalize (nth i l v3zero); intros; vring) Cb Rb Nb) as Gb. pose proof (cut_facts vs n s kt tt rt ltac:(intros i I; apply (pv_nth i I)) Ct Rt Nt) as Gt.
  assert (Zd : dot m v3zero = 0) by (spec_unfold; ring). intros p. rewrite inside_hgt; [|exact Bl|exact Fr|].
  2:{ rewrite Ev', FF. assert (Q : forall f, List.In f (map turned tb ++ tt ++ mantle n) -> firm vs f). { intros f I. apply in_app_or in I. destruct I as [I|I]; [apply in_map_iff in I; destruct I as (g & <- & I); apply firm_turned, Gb, I|]. apply in_app_or in I. destruct I as [I|I]; [apply Gt, I|]. destruct (mantle_hgt f I) as (i & _ & Q & _). exact Q. }
      intros f I. destruct (Rltb 0 _); [apply Q, I|]. apply in_map_iff in I. destruct I as (g & <- & I). apply firm_turned, Q, I. }
  set (e := if Rltb 0 (A * dot m s) then 1 else -1). assert (He : e * dot m s > 0 /\ (e = 1 \/ e = -1)). { unfold e. destruct (Rltb_reflect 0 (A * dot m s)); split; auto; nra. } destruct He as (He & _).
  assert (X : (forall f, List.In f (ph_faces ph) -> hgt (pverts ph) f p < 0) <-> forall f, List.In f (map turned tb ++ tt ++ mantle n) -> e * hgt vs f p < 0).
  { rewrite Ev', FF. unfold e. destruct (Rltb 0 _); split; intros G f I; try (specialize (G f I); lra).
    - specialize (G _ (in_map turned _ _ I)). rewrite hgt_turned in G. lra.
    - apply in_map_iff in I. destruct I as (g & <- & I). specialize (G g I). rewrite hgt_turned. lra. }
  rewrite X. clear X FF E Vo. split.
  - intros G. set (t := dot m (vsub p o) / dot m s). exists (vsub p (vscale t s)), t. assert (Et : dot m (vsub p o) = t * dot m s) by (unfold t; field; exact D).
    assert (Oq : dot m (vsub (vsub p (vscale t s)) o) = 0) by (replace (dot m (vsub (vsub p (vscale t s)) o)) with (dot m (vsub p o) - t * dot m s) by (spec_unfold; ring); lra).
    split; [apply enclosed_spin; split; [exact Oq|]|split].
    + intros i I. specialize (G _ (in_or_app _ _ _ (or_intror (in_or_app _ _ _ (or_intror (mantle_has i I)))))). destruct (mantle_hgt _ (mantle_has i I)) as (i' & I' & _ & Q).
      cbn [hgt] in G. destruct (pv_nth i I) as (Ea & Ec). destruct (pv_nth (nxt n i) (nxt_lt n i I)) as (Eb & Ed). rewrite Nat.add_comm in Ed. rewrite Ea, Eb, Ed in G. revert G. pose proof (wall (nth i l v3zero) (nth (nxt n i) l v3zero) (vsub p (vscale t s)) s (corner_on i I) (corner_on _ (nxt_lt n i I)) Oq) as Wl. revert Wl. generalize (nth i l v3zero) (nth (nxt n i) l v3zero). intros a b Wl G.
      replace (dot (vsub p a) (tri_normal a b (vadd b s))) with (dot (vsub (vsub p (vscale t s)) a) (cross (vsub b a) s)) in G by (unfold tri_normal; spec_unfold; ring). rewrite Wl in G. nra.
    + destruct tb as [|f1 tb']; [congruence|]. destruct tt as [|f2 tt']; [congruence|]. destruct (Gb f1 (or_introl eq_refl)) as (_ & e1 & P1 & Q1). destruct (Gt f2 (or_introl eq_refl)) as (_ & e2 & P2 & Q2).
      pose proof (G (turned f1) (or_introl eq_refl)) as G1. assert (I2 : List.In f2 (map turned (f1 :: tb') ++ (f2 :: tt') ++ mantle n)) by (apply in_or_app; right; left; reflexivity); pose proof (G f2 I2) as G2. rewrite hgt_turned, Q1, Zd, Et in G1. rewrite Q2, Et in G2. set (d := dot m s) in *. clearbody d t. clear - G1 G2 P1 P2 He.
      split; apply Rnot_le_lt; intros B.
      * assert (0 <= e1 * (- t * (e * d))) by (apply Rmult_le_pos; [lra|apply Rmult_le_pos; lra]). nra.
      * assert (0 <= e2 * ((t - 1) * (e * d))) by (apply Rmult_le_pos; [lra|apply Rmult_le_pos; lra]). nra.
    + clear. destruct p, s. vring.
  - intros (q & t & Q & T & ->). apply enclosed_spin in Q. destruct Q as (Oq & Sq). assert (Et : dot m (vsub (vadd q (vscale t s)) o) = t * dot m s) by (replace (dot m (vsub (vadd q (vscale t s)) o)) with (dot m (vsub q o) + t * dot m s) by (spec_unfold; ring); rewrite Oq; ring).
    intros f I. apply in_app_or in I. destruct I as [I|I]; [|apply in_app_or in I; destruct I as [I|I]].
    + apply in_map_iff in I. destruct I as (g & <- & I). destruct (Gb g I) as (_ & e1 & P1 & Q1). rewrite hgt_turned, Q1, Et, Zd. assert (0 < e1 * (t * (e * dot m s))) by (apply Rmult_lt_0_compat; [lra|apply Rmult_lt_0_compat; lra]). nra.
    + destruct (Gt f I) as (_ & e1 & P1 & Q1). rewrite Q1, Et. assert (0 < e1 * ((1 - t) * (e * dot m s))) by (apply Rmult_lt_0_compat; [lra|apply Rmult_lt_0_compat; lra]). nra.
    + destruct (mantle_hgt f I) as (i & Li & _ & ->). specialize (Sq i Li). pose proof (wall (nth i l v3zero) (nth (nxt n i) l v3zero) q s (corner_on i Li) (corner_on _ (nxt_lt n i Li)) Oq) as Wl. revert Sq Wl. generalize (nth i l v3zero) (nth (nxt n i) l v3zero). intros a b Sq Wl.
      replace (dot (vsub (vadd q (vscale t s)) a) (cross (vsub b a) s)) with (dot (vsub q a) (cross (vsub b a) s)) by (spec_unfold; ring). rewrite Wl. assert (0 < spin m a b q * (e * dot m s)) by (apply Rmult_lt_0_compat; lra). nra.
Qed.
End Lift.
Section Point.
Variable a : vec3.
Notation h := (dot m (vsub a o)).
Notation vs := (l ++ [a]).
Hypothesis D : h <> 0.
Hypothesis W : forall i, (i < n)%nat -> ~ negligible (cross (side_of l i) (vsub a (nth i l v3zero))).
Lemma av_nth i : (i < n)%nat -> vertAt vs i = nth i l v3zero. Proof. intros I. unfold vertAt. rewrite app_nth1 by exact I. reflexivity. Qed.
Lemma av_top : vertAt vs n = a. Proof. unfold vertAt. rewrite app_nth2, Nat.sub_diag by lia. reflexivity. Qed.
Lemma fan_hgt f : List.In f (cone_fan n) -> exists i, (i < n)%nat /\ f = (i, nxt n i, n) /\ firm vs f /\ forall p, hgt vs f p = dot (vsub p (nth i l v3zero)) (cross (vsub (nth (nxt n i) l v3zero) (nth i l v3zero)) (vsub a (nth i l v3zero))).
Proof.
  intros I. unfold cone_fan in I. apply in_map_iff in I. destruct I as (i & <- & I). apply in_seq in I. assert (Li : (i < n)%nat) by lia. exists i. split; [exact Li|]. split; [reflexivity|]. specialize (W i Li). unfold side_of in W. rewrite <- (nxt_mod n i Li) in W. cbn [hgt firm]. rewrite av_top, (av_nth i Li), (av_nth _ (nxt_lt n i Li)). split; [exact W|reflexivity].
Qed.
Lemma fan_has i : (i < n)%nat -> List.In (i, nxt n i, n) (cone_fan n).
Proof. intros I. apply in_map_iff. exists i. split; [reflexivity|apply in_seq; lia]. Qed.
Lemma fan_total p : rsum (fun i => dot (vsub p (nth i l v3zero)) (cross (vsub (nth (nxt n i) l v3zero) (nth i l v3zero)) (vsub a (nth i l v3zero)))) (seq 0 n) = dot m (vsub p a) * A.
Proof.
  assert (Nz : n <> 0%nat) by lia. pose proof (ring_area o m (vsub p a) (fun i => nth i l v3zero) n U Nz corner_on) as R. cbv beta in R. replace (map (fun i => nth i l v3zero) (seq 0 n)) with l in R.
  2:{ apply (nth_ext _ _ v3zero v3zero); [rewrite map_length, seq_length; reflexivity|]. intros i I. rewrite (nth_indep (map _ _) v3zero (nth 0 l v3zero)) by (rewrite map_length, seq_length; exact I). rewrite (map_nth (fun i => nth i l v3zero)), seq_nth by exact I. reflexivity. }
  replace (dot m (vsub p a)) with (dot (vsub p a) m) by (spec_unfold; ring). rewrite <- R.
  set (k := fun i => dot (vsub p a) (cross (nth i l v3zero) a)). pose proof (ring_tele k n Nz) as T.
  rewrite (rsum_ext _ (fun i => dot (vsub p a) (cross (nth i l v3zero) (nth (nxt n i) l v3zero)) + (k (nxt n i) - k i))); [rewrite rsum_add, T; ring|]. intros i _. unfold k. generalize (nth i l v3zero) (nth (nxt n i) l v3zero). intros; spec_unfold; ring.
Qed.
Lemma rsum_neg {B} (f : B -> R) r : r <> [] -> (forall x, List.In x r -> f x < 0) -> rsum f r < 0.
Proof. induction r as [|x r IH]; [congruence|]. intros _ G. rewrite rsum_cons. pose proof (G x (or_introl eq_refl)). destruct r as [|y r]; [rewrite rsum_nil; lra|]. assert (rsum f (y :: r) < 0) by (apply IH; [discriminate|intros; apply G; right; assumption]). lra. Qed.
Lemma pyramid_convex : exists ph, zPH3DCreatePyramid l a = Some (Some ph) /\ oriented (ph_faces ph) /\ zPH3DVolume ph = Some (Rabs h * A / 6) /\ 0 < A /\
  forall p, zPH3DPointIsInside ph p 0 = Some true <-> exists q t, enclosed o m l q /\ 0 < t < 1 /\ p = vadd q (vscale t (vsub a q)).
Proof.
  pose proof (convex_area o m l U P N3 H) as Ap. destruct (pyramid_main o m l a U P N3 D) as (ph & E & Ev & _ & Fr & [S|(Bl & _ & Or & Vo & _)]); [exfalso; exact (convex_free o m l U P N3 H S)|]. exists ph. split; [exact E|]. split; [exact Or|]. split; [rewrite Vo, (Rabs_right A) by lra; reflexivity|]. split; [exact Ap|].
  destruct (pyramid_core o m l a U P N3 D) as (ph' & E' & Ev' & _ & _ & C). assert (ph' = ph) by congruence. subst ph'. clear E'. destruct C as [S|(kb & tb & rb & Cb & Rb & Nb & A0 & FF)]; [exfalso; exact (convex_free o m l U P N3 H S)|].
  pose proof (cut_facts vs 0 v3zero kb tb rb ltac:(intros i I; cbn [plus]; rewrite (av_nth i I); generalize (nth i l v3zero); intros; vring) Cb Rb Nb) as Gb.
  assert (Zd : dot m v3zero = 0) by (spec_unfold; ring). intros p. rewrite inside_hgt; [|exact Bl|exact Fr|].
  2:{ rewrite Ev', FF. assert (Q : forall f, List.In f (map turned tb ++ cone_fan n) -> firm vs f). { intros f I. apply in_app_or in I. destruct I as [I|I]; [apply in_map_iff in I; destruct I as (g & <- & I); apply firm_turned, Gb, I|]. destruct (fan_hgt f I) as (i & _ & _ & Q & _). exact Q. }
      intros f I. destruct (Rltb 0 _); [apply Q, I|]. apply in_map_iff in I. destruct I as (g & <- & I). apply firm_turned, Q, I. }
  set (e := if Rltb 0 (A * h) then 1 else -1). assert (He : e * h > 0 /\ (e = 1 \/ e = -1)). { unfold e. destruct (Rltb_reflect 0 (A * h)); split; auto; nra. } destruct He as (He & He2).
  assert (X : (forall f, List.In f (ph_faces ph) -> hgt (pverts ph) f p < 0) <-> forall f, List.In f (map turned tb ++ cone_fan n) -> e * hgt vs f p < 0).
  { rewrite Ev', FF. unfold e. destruct (Rltb 0 _); split; intros G f I; try (specialize (G f I); lra).
    - specialize (G _ (in_map turned _ _ I)). rewrite hgt_turned in G. lra.
    - apply in_map_iff in I. destruct I as (g & <- & I). specialize (G g I). rewrite hgt_turned. lra. }
  rewrite X. clear X FF E Vo. split.
  - intros G. set (t := dot m (vsub p o) / h). assert (Et : dot m (vsub p o) = t * h) by (unfold t; field; exact D).
    assert (T1 : t < 1).
    { assert (Ng : rsum (fun i => e * dot (vsub p (nth i l v3zero)) (cross (vsub (nth (nxt n i) l v3zero) (nth i l v3zero)) (vsub a (nth i l v3zero)))) (seq 0 n) < 0).
      { apply rsum_neg; [destruct n; [lia|discriminate]|]. intros i I. apply in_seq in I. assert (Li : (i < n)%nat) by lia. specialize (G _ (in_or_app _ _ _ (or_intror (fan_has i Li)))). destruct (fan_hgt _ (fan_has i Li)) as (i' & _ & Ei & _ & Q). assert (i' = i) by congruence. subst i'. rewrite Q in G. exact G. }
      rewrite rsum_scale, fan_total in Ng. replace (dot m (vsub p a)) with (dot m (vsub p o) - h) in Ng by (spec_unfold; ring). rewrite Et in Ng. set (k := h) in *. clearbody k t. apply Rnot_le_lt. intros B. assert (0 <= A * ((t - 1) * (e * k))) by (apply Rmult_le_pos; [lra|apply Rmult_le_pos; lra]). nra. }
    assert (T0 : 0 < t).
    { destruct tb as [|f1 tb']; [congruence|]. destruct (Gb f1 (or_introl eq_refl)) as (_ & e1 & P1 & Q1). pose proof (G (turned f1) (or_introl eq_refl)) as G1. rewrite hgt_turned, Q1, Zd, Et in G1. set (k := h) in *. clearbody k t. apply Rnot_le_lt. intros B. assert (0 <= e1 * (- t * (e * k))) by (apply Rmult_le_pos; [lra|apply Rmult_le_pos; lra]). nra. }
    set (q := vscale (/ (1 - t)) (vsub p (vscale t a))). assert (Ep : p = vadd q (vscale t (vsub a q))) by (unfold q; clear - T1; destruct p as [p1 p2 p3], a as [a1 a2 a3]; apply vec3_ext; spec_unfold; field; lra).
    exists q, t. split; [|auto]. clearbody q. apply enclosed_spin. assert (Oq : dot m (vsub q o) = 0). { rewrite Ep in Et. replace (dot m (vsub (vadd q (vscale t (vsub a q))) o)) with ((1 - t) * dot m (vsub q o) + t * h) in Et by (spec_unfold; ring). assert ((1 - t) * dot m (vsub q o) = 0) as Z by lra. apply Rmult_integral in Z. destruct Z; [lra|assumption]. }
    split; [exact Oq|]. intros i I. specialize (G _ (in_or_app _ _ _ (or_intror (fan_has i I)))). destruct (fan_hgt _ (fan_has i I)) as (i' & _ & Ei & _ & Q). assert (i' = i) by congruence. subst i'. rewrite Q, Ep in G. clear Q.
    pose proof (corner_on i I) as Oi. pose proof (wall (nth i l v3zero) (nth (nxt n i) l v3zero) q (vsub a (nth i l v3zero)) Oi (corner_on _ (nxt_lt n i I)) Oq) as Wl. revert G Wl Oi. generalize (nth i l v3zero) (nth (nxt n i) l v3zero). intros x y G Wl Oi.
    replace (dot (vsub (vadd q (vscale t (vsub a q))) x) (cross (vsub y x) (vsub a x))) with ((1 - t) * dot (vsub q x) (cross (vsub y x) (vsub a x))) in G by (spec_unfold; ring). rewrite Wl in G. replace (dot m (vsub a x)) with h in G by (replace (dot m (vsub a x)) with (h - dot m (vsub x o)) by (spec_unfold; ring); lra).
    apply Rnot_le_lt. intros B. assert (0 <= - spin m x y q * ((1 - t) * (e * h))) by (apply Rmult_le_pos; [lra|apply Rmult_le_pos; lra]). nra.
  - intros (q & t & Q & T & ->). apply enclosed_spin in Q. destruct Q as (Oq & Sq). assert (Et : dot m (vsub (vadd q (vscale t (vsub a q))) o) = t * h) by (replace (dot m (vsub (vadd q (vscale t (vsub a q))) o)) with ((1 - t) * dot m (vsub q o) + t * h) by (spec_unfold; ring); rewrite Oq; ring).
    intros f I. apply in_app_or in I. destruct I as [I|I].
    + apply in_map_iff in I. destruct I as (g & <- & I). destruct (Gb g I) as (_ & e1 & P1 & Q1). rewrite hgt_turned, Q1, Et, Zd. assert (0 < e1 * (t * (e * h))) by (apply Rmult_lt_0_compat; [lra|apply Rmult_lt_0_compat; lra]). nra.
    + destruct (fan_hgt f I) as (i & Li & _ & _ & ->). specialize (Sq i Li). pose proof (corner_on i Li) as Oi. pose proof (wall (nth i l v3zero) (nth (nxt n i) l v3zero) q (vsub a (nth i l v3zero)) Oi (corner_on _ (nxt_lt n i Li)) Oq) as Wl. revert Sq Wl Oi. generalize (nth i l v3zero) (nth (nxt n i) l v3zero). intros x y Sq Wl Oi.
      replace (dot (vsub (vadd q (vscale t (vsub a q))) x) (cross (vsub y x) (vsub a x))) with ((1 - t) * dot (vsub q x) (cross (vsub y x) (vsub a x))) by (spec_unfold; ring). rewrite Wl. replace (dot m (vsub a x)) with h by (replace (dot m (vsub a x)) with (h - dot m (vsub x o)) by (spec_unfold; ring); lra). assert (0 < spin m x y q * ((1 - t) * (e * h))) by (apply Rmult_lt_0_compat; [lra|apply Rmult_lt_0_compat; lra]). nra.
Qed.
End Point.
End Convex.

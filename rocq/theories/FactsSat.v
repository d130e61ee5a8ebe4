(** Completeness of the separating-axis test: sums of segments and their faces. *)
From Verif Require Import Base Spec SpecBox ModelBox FactsVec FactsAlg FactsElem FactsTri FactsCentre FactsFrame FactsBox FactsObb.
Open Scope R_scope.

(** sum of the segments [-g, g], and its width along a direction *)
Fixpoint zono (gs : list vec3) (p : vec3) : Prop :=
  match gs with
  | [] => p = v3zero
  | g :: gs => exists t, Rabs t <= 1 /\ zono gs (vsub p (vscale t g))
  end.
Fixpoint hw (gs : list vec3) (n : vec3) : R :=
  match gs with [] => 0 | g :: gs => Rabs (dot n g) + hw gs n end.
Lemma hw_nonneg gs n : 0 <= hw gs n.
Proof. induction gs; cbn [hw]; [lra|]. pose proof (Rabs_pos (dot n a)). lra. Qed.
Lemma hw_scale gs k n : hw gs (vscale k n) = Rabs k * hw gs n.
Proof. induction gs as [|g gs IH]; cbn [hw]; [ring|]. rewrite IH, dot_scale_l, Rabs_mult. ring. Qed.
Lemma hw_add gs a b : hw gs (vadd a b) <= hw gs a + hw gs b.
Proof.
  induction gs as [|g gs IH]; cbn [hw]; [lra|]. rewrite dot_add_l. pose proof (Rabs_triang (dot a g) (dot b g)). lra.
Qed.
Lemma zono_support gs : forall l, (forall n, dot n l <= hw gs n) -> zono gs l.
Proof.
  induction gs as [|g gs IH]; intros l H; cbn [zono].
  - apply dot_self_zero. apply Rle_antisym; [|apply dot_self_nonneg]. exact (H l).
  - cbn [hw] in H. destruct (Req_EM_T (dot g g) 0) as [Z|Z].
    { apply dot_self_zero in Z. subst g. exists 0. split; [rewrite Rabs_R0; lra|]. apply IH. intros n. specialize (H n).
      replace (dot n v3zero) with 0 in H by (spec_unfold; ring). rewrite Rabs_R0 in H.
      replace (vsub l (vscale 0 v3zero)) with l by vring. lra. }
    set (E := fun x => x = -1 \/ exists n, dot n g = 1 /\ x = dot n l - hw gs n).
    assert (B : forall u, u = 1 \/ (exists n, dot n g = -1 /\ u = hw gs n - dot n l) -> is_upper_bound E u).
    { intros u Hu x Hx. destruct Hx as [->|(n & Hn & ->)], Hu as [->|(m & Hm & ->)]; try lra.
      - specialize (H m). rewrite Hm in H. replace (Rabs (-1)) with 1 in H by (unfold Rabs; destruct (Rcase_abs _); lra). lra.
      - specialize (H n). rewrite Hn, Rabs_R1 in H. lra.
      - specialize (H (vadd n m)). rewrite !dot_add_l in H. rewrite Hn, Hm in H. replace (1 + -1) with 0 in H by ring. rewrite Rabs_R0 in H.
        pose proof (hw_add gs n m). lra. }
    destruct (completeness E) as (t & Ub & Lub).
    { exists 1. apply B. auto. }
    { exists (-1). left; reflexivity. }
    exists t. split.
    { apply abs_le_iff. split; [apply Ub; left; lra|apply Lub, B; auto]. }
    apply IH. intros n. rewrite dot_sub_r, dot_scale_r.
    destruct (Rtotal_order (dot n g) 0) as [S|[S|S]].
    + set (k := / - dot n g). assert (Hk : 0 < k) by (apply Rinv_0_lt_compat; lra).
      assert (Kg : k * dot n g = -1) by (unfold k; field; lra).
      assert (T : t <= hw gs (vscale k n) - dot (vscale k n) l).
      { apply Lub, B. right. exists (vscale k n). split; [rewrite dot_scale_l; lra|reflexivity]. }
      rewrite hw_scale, dot_scale_l, Rabs_right in T by lra.
      apply (Rmult_le_reg_l k); [exact Hk|].
      replace (k * (dot n l - t * dot n g)) with (k * dot n l - t * (k * dot n g)) by ring. rewrite Kg. lra.
    + specialize (H n). rewrite S, Rabs_R0 in H. rewrite S. lra.
    + set (k := / dot n g). assert (Hk : 0 < k) by (apply Rinv_0_lt_compat; lra).
      assert (Kg : k * dot n g = 1) by (unfold k; field; lra).
      assert (T : dot (vscale k n) l - hw gs (vscale k n) <= t).
      { apply Ub. right. exists (vscale k n). split; [rewrite dot_scale_l; lra|reflexivity]. }
      rewrite hw_scale, dot_scale_l, Rabs_right in T by lra.
      apply (Rmult_le_reg_l k); [exact Hk|].
      replace (k * (dot n l - t * dot n g)) with (k * dot n l - t * (k * dot n g)) by ring. rewrite Kg. lra.
Qed.
(** ** directions perpendicular to one or two vectors *)
Lemma perp_two a b : exists d, d <> v3zero /\ dot d a = 0 /\ dot d b = 0.
Proof.
  assert (One : forall a, exists d, d <> v3zero /\ dot d a = 0).
  { intros [x y z]. destruct (Req_EM_T x 0) as [->|Hx].
    - exists (V3 1 0 0). split; [intros E; injection E; lra|]. spec_unfold. ring.
    - exists (V3 (- y) x 0). split; [intros E; injection E; intros; lra|]. spec_unfold. ring. }
  destruct (Req_EM_T (dot (cross a b) (cross a b)) 0) as [Z|Z].
  - apply dot_self_zero in Z. destruct (Req_EM_T (dot a a) 0) as [A|A].
    + apply dot_self_zero in A. subst a. destruct (One b) as (d & D & E). exists d. split; [exact D|]. split; [spec_unfold; ring|exact E].
    + destruct (One a) as (d & D & E). exists d. split; [exact D|]. split; [exact E|].
      apply (Rmult_eq_reg_l (dot a a)); [|exact A]. rewrite Rmult_0_r.
      (* (a.a) b = (a.b) a + (a x b) x a *)
      replace (dot a a * dot d b) with (dot a b * dot d a + dot d (cross (cross a b) a)) by (spec_unfold; ring).
      rewrite E, Z. spec_unfold. ring.
  - exists (cross a b). split; [intros E; apply Z; rewrite E; spec_unfold; ring|]. split; spec_unfold; ring.
Qed.
(** ** sliding a direction to a wall of its cell *)
Definition sg (x : R) : R := if Rlt_dec 0 x then 1 else if Rlt_dec x 0 then -1 else 0.
Lemma sg_abs x : sg x * x = Rabs x.
Proof. unfold sg, Rabs. destruct (Rlt_dec 0 x), (Rlt_dec x 0), (Rcase_abs x); nra. Qed.
Fixpoint esum (gs : list vec3) (n : vec3) : vec3 :=
  match gs with [] => v3zero | g :: gs => vadd (vscale (sg (dot n g)) g) (esum gs n) end.
Lemma hw_slide gs n d s : (forall g, In g gs -> dot n g = 0 -> dot d g = 0) ->
  (forall g, In g gs -> 0 <= sg (dot n g) * (dot n g + s * dot d g)) ->
  hw gs (vadd n (vscale s d)) = hw gs n + s * dot (esum gs n) d.
Proof.
  induction gs as [|g gs IH]; intros Z H; cbn [hw esum]; [spec_unfold; ring|].
  rewrite IH by (intros; first [apply Z|apply H]; cbn; auto).
  rewrite !dot_add_l, !dot_scale_l.
  pose proof (H g (or_introl eq_refl)) as Hg. pose proof (Z g (or_introl eq_refl)) as Zg.
  rewrite (dot_comm g d). set (x := dot n g) in *. set (y := dot d g) in *.
  assert (K : Rabs (x + s * y) = Rabs x + s * (sg x * y)); [|rewrite K; ring].
  unfold sg in *. destruct (Rlt_dec 0 x), (Rlt_dec x 0); unfold Rabs; destruct (Rcase_abs _), (Rcase_abs _); try nra.
Qed.
Lemma esum_neg gs n d : (exists g, In g gs /\ dot d g <> 0) -> (forall g, In g gs -> dot n g = 0 -> dot d g = 0) ->
  dot (esum gs n) d = 0 -> exists g, In g gs /\ sg (dot n g) * dot d g < 0.
Proof.
  intros (g0 & I0 & N0) Z E.
  destruct (Exists_dec (fun g => sg (dot n g) * dot d g < 0) gs) as [X|X].
  { intros g. destruct (Rlt_dec (sg (dot n g) * dot d g) 0); auto. }
  { apply Exists_exists in X. exact X. }
  exfalso. assert (P : forall g, In g gs -> 0 <= sg (dot n g) * dot d g).
  { intros g Hg. apply Rnot_lt_le. intros L. apply X. apply Exists_exists. eauto. }
  assert (S : 0 < sg (dot n g0) * dot d g0).
  { destruct (P g0 I0) as [?|Eq]; [assumption|]. exfalso. assert (sg (dot n g0) <> 0).
    { unfold sg. destruct (Rlt_dec 0 (dot n g0)), (Rlt_dec (dot n g0) 0); try lra. intros _. apply N0, Z; auto. lra. }
    destruct (Rmult_integral _ _ (eq_sym Eq)); contradiction. }
  assert (0 < dot (esum gs n) d); [|lra]. clear E N0 X Z.
  assert (Q : forall l, (forall g, In g l -> 0 <= sg (dot n g) * dot d g) -> 0 <= dot (esum l n) d).
  { induction l as [|g l IHl]; intros Hl; cbn [esum]; [spec_unfold; lra|]. rewrite dot_add_l, dot_scale_l, (dot_comm g).
    pose proof (Hl g (or_introl eq_refl)). specialize (IHl ltac:(intros; apply Hl; cbn; auto)). lra. }
  induction gs as [|g gs IH]; [destruct I0|]. cbn [esum]. rewrite dot_add_l, dot_scale_l, (dot_comm g).
  destruct I0 as [<-|I0].
  - specialize (Q gs ltac:(intros; apply P; cbn; auto)). lra.
  - specialize (IH I0 ltac:(intros; apply P; cbn; auto)). pose proof (P g (or_introl eq_refl)). lra.
Qed.
Lemma argmin {A} (P : A -> Prop) (f : A -> R) (l : list A) : (forall a, {P a} + {~ P a}) -> (exists a, In a l /\ P a) ->
  exists a, In a l /\ P a /\ forall b, In b l -> P b -> f a <= f b.
Proof.
  intros D. induction l as [|x l IH]; intros (a & Ha & Pa); [destruct Ha|].
  destruct (Exists_dec P l D) as [X|X].
  - apply Exists_exists in X. destruct (IH X) as (m & Im & Pm & Hm).
    destruct (D x) as [Px|Nx].
    + destruct (Rle_dec (f x) (f m)).
      * exists x. split; [left; auto|]. split; [auto|]. intros b [<-|Hb] Pb; [lra|]. specialize (Hm b Hb Pb). lra.
      * exists m. split; [right; auto|]. split; [auto|]. intros b [<-|Hb] Pb; [lra|auto].
    + exists m. split; [right; auto|]. split; [auto|]. intros b [<-|Hb] Pb; [contradiction|auto].
  - destruct Ha as [<-|Ha]; [|exfalso; apply X, Exists_exists; eauto].
    exists x. split; [left; auto|]. split; [auto|]. intros b [<-|Hb] Pb; [lra|]. exfalso; apply X, Exists_exists; eauto.
Qed.
Definition spanning (gs : list vec3) : Prop := forall r, (forall g, In g gs -> dot r g = 0) -> r = v3zero.
Lemma slide gs l n d : spanning gs -> d <> v3zero -> dot d (esum gs n) = 0 ->
  (forall g, In g gs -> dot n g = 0 -> dot d g = 0) -> hw gs n < dot n l ->
  exists n' g0, In g0 gs /\ dot n' g0 = 0 /\ dot d g0 <> 0 /\ hw gs n' < dot n' l /\ (forall g, In g gs -> dot n g = 0 -> dot n' g = 0).
Proof.
  intros Sp Hd He Hz Hf.
  assert (W : exists d', d' <> v3zero /\ dot d' (esum gs n) = 0 /\ (forall g, In g gs -> dot n g = 0 -> dot d' g = 0) /\ 0 <= dot d' l /\
    forall g, dot d' g <> 0 -> dot d g <> 0).
  { destruct (Rle_dec 0 (dot d l)) as [L|L].
    - exists d. auto.
    - exists (vscale (-1) d). split; [intros E; apply Hd; replace d with (vscale (-1) (vscale (-1) d)) by vring; rewrite E; vring|].
      rewrite dot_scale_l, He. split; [ring|]. split; [intros g Hg Zg; rewrite dot_scale_l, (Hz g Hg Zg); ring|].
      rewrite dot_scale_l. split; [lra|]. intros g Hg. rewrite dot_scale_l in Hg. intros E. rewrite E in Hg. lra. }
  destruct W as (d' & Hd' & He' & Hz' & Hl & Hdd).
  assert (Ng : exists g, In g gs /\ dot d' g <> 0).
  { destruct (Exists_dec (fun g => dot d' g <> 0) gs) as [X|X].
    - intros g. destruct (Req_EM_T (dot d' g) 0); [right; tauto|left; auto].
    - apply Exists_exists in X. exact X.
    - exfalso. apply Hd'. apply Sp. intros g Hg. destruct (Req_EM_T (dot d' g) 0); auto. exfalso. apply X, Exists_exists. eauto. }
  rewrite dot_comm in He'.
  pose proof (esum_neg gs n d' Ng Hz' He') as Hneg.
  destruct (argmin (fun g => sg (dot n g) * dot d' g < 0) (fun g => - (dot n g / dot d' g)) gs) as (g0 & I0 & P0 & M0).
  { intros g. apply Rlt_dec. } { exact Hneg. }
  set (s := - (dot n g0 / dot d' g0)) in *.
  assert (D0 : dot d' g0 <> 0) by (intros E; rewrite E in P0; lra).
  assert (Spos : 0 < s).
  { unfold s. unfold sg in P0. unfold Rdiv. destruct (Rlt_dec 0 (dot n g0)); [|destruct (Rlt_dec (dot n g0) 0); [|lra]].
    - assert (/ dot d' g0 < 0) by (apply Rinv_lt_0_compat; lra). nra.
    - assert (0 < / dot d' g0) by (apply Rinv_0_lt_compat; lra). nra. }
  assert (Hs : forall g, In g gs -> 0 <= sg (dot n g) * (dot n g + s * dot d' g)).
  { intros g Hg. rewrite Rmult_plus_distr_l, sg_abs. pose proof (Rabs_pos (dot n g)).
    destruct (Rlt_dec (sg (dot n g) * dot d' g) 0) as [Lt|Ge]; [|assert (0 <= s * (sg (dot n g) * dot d' g)) by (apply Rmult_le_pos; lra); lra].
    specialize (M0 g Hg Lt). cbv beta in M0.
    assert (D1 : dot d' g <> 0) by (intros E; rewrite E in Lt; lra).
    set (x := dot n g) in *. set (y := dot d' g) in *.
    assert (EQ : Rabs x = - (x / y) * (- (sg x * y))) by (rewrite <- sg_abs; field; auto).
    rewrite EQ. assert (0 <= (- (x / y) - s) * (- (sg x * y))) by (apply Rmult_le_pos; lra). lra. }
  exists (vadd n (vscale s d')), g0. split; [exact I0|]. split; [|split; [apply Hdd, D0|split]].
  - rewrite dot_add_l, dot_scale_l. unfold s. field. exact D0.
  - rewrite hw_slide by assumption. rewrite He', Rmult_0_r, Rplus_0_r, dot_add_l, dot_scale_l.
    assert (0 <= s * dot d' l) by (apply Rmult_le_pos; lra). lra.
  - intros g Hg Zg. rewrite dot_add_l, dot_scale_l, Zg, (Hz' g Hg Zg). ring.
Qed.
Lemma cross_zero_parallel a b : a <> v3zero -> cross a b = v3zero -> exists k, b = vscale k a.
Proof.
  intros Ha H. assert (A : dot a a <> 0) by (intros E; apply Ha, dot_self_zero, E).
  exists (dot a b / dot a a).
  assert (E : vscale (dot a a) b = vscale (dot a b) a).
  { replace (vscale (dot a a) b) with (vadd (vscale (dot a b) a) (cross (cross a b) a)) by vring. rewrite H. vring. }
  transitivity (vscale (/ dot a a) (vscale (dot a a) b)).
  - apply vec3_ext; unfold vscale; pcbn; field; exact A.
  - rewrite E. apply vec3_ext; unfold vscale; pcbn; field; exact A.
Qed.
Lemma facets gs l : spanning gs ->
  (forall g1 g2, In g1 gs -> In g2 gs -> cross g1 g2 <> v3zero -> Rabs (dot (cross g1 g2) l) <= hw gs (cross g1 g2)) ->
  forall n, dot n l <= hw gs n.
Proof.
  intros Sp H n. apply Rnot_lt_le. intros F.
  assert (St1 : exists n1 g1, In g1 gs /\ g1 <> v3zero /\ dot n1 g1 = 0 /\ hw gs n1 < dot n1 l).
  { destruct (Exists_dec (fun g => g <> v3zero /\ dot n g = 0) gs) as [X|X].
    - intros g. destruct (Req_EM_T (dot g g) 0) as [Z|Z].
      + right. intros [K _]. apply K, dot_self_zero, Z.
      + destruct (Req_EM_T (dot n g) 0); [left; split; auto; intros ->; apply Z; spec_unfold; ring|right; tauto].
    - apply Exists_exists in X. destruct X as (g & Hg & G1 & G2). exists n, g. auto.
    - destruct (perp_two (esum gs n) v3zero) as (d & Hd & He & _).
      destruct (slide gs l n d Sp Hd He) as (n' & g0 & I0 & Z0 & D0 & F' & _); auto.
      + intros g Hg Zg. destruct (Req_EM_T (dot g g) 0) as [Z|Z].
        * apply dot_self_zero in Z. subst g. spec_unfold. ring.
        * exfalso. apply X, Exists_exists. exists g. split; [exact Hg|]. split; [intros ->; apply Z; spec_unfold; ring|exact Zg].
      + exists n', g0. repeat split; auto. intros ->. apply D0. spec_unfold; ring. }
  destruct St1 as (n1 & g1 & I1 & Ng1 & Z1 & F1).
  assert (St2 : exists n2 g2, In g2 gs /\ cross g1 g2 <> v3zero /\ dot n2 g1 = 0 /\ dot n2 g2 = 0 /\ hw gs n2 < dot n2 l).
  { destruct (Exists_dec (fun g => cross g1 g <> v3zero /\ dot n1 g = 0) gs) as [X|X].
    - intros g. destruct (Req_EM_T (dot (cross g1 g) (cross g1 g)) 0) as [Z|Z].
      + right. intros [K _]. apply K, dot_self_zero, Z.
      + destruct (Req_EM_T (dot n1 g) 0); [left; split; auto; intros E; apply Z; rewrite E; spec_unfold; ring|right; tauto].
    - apply Exists_exists in X. destruct X as (g & Hg & G1 & G2). exists n1, g. auto.
    - destruct (perp_two (esum gs n1) g1) as (d & Hd & He & Hg1).
      destruct (slide gs l n1 d Sp Hd He) as (n' & g0 & I0 & Z0 & D0 & F' & Keep); auto.
      + intros g Hg Zg. destruct (Req_EM_T (dot (cross g1 g) (cross g1 g)) 0) as [Z|Z].
        * apply dot_self_zero in Z. destruct (cross_zero_parallel _ _ Ng1 Z) as (k & ->). rewrite dot_scale_r, Hg1. ring.
        * exfalso. apply X, Exists_exists. exists g. split; [exact Hg|]. split; [intros E; apply Z; rewrite E; spec_unfold; ring|exact Zg].
      + exists n', g0. repeat split; auto. intros Z. destruct (cross_zero_parallel _ _ Ng1 Z) as (k & ->). apply D0. rewrite dot_scale_r, Hg1. ring. }
  destruct St2 as (n2 & g2 & I2 & Nc & P1 & P2 & F2).
  set (m := cross g1 g2) in *.
  assert (Cz : cross m n2 = v3zero).
  { unfold m. replace (cross (cross g1 g2) n2) with (vsub (vscale (dot n2 g1) g2) (vscale (dot n2 g2) g1)) by vring. rewrite P1, P2. vring. }
  destruct (cross_zero_parallel _ _ Nc Cz) as (k & ->). specialize (H g1 g2 I1 I2 Nc). fold m in H.
  rewrite hw_scale, dot_scale_l in F2. pose proof (Rle_abs (k * dot m l)) as A. rewrite Rabs_mult in A.
  pose proof (Rmult_le_compat_l (Rabs k) _ _ (Rabs_pos k) H). lra.
Qed.
(** ** application to two boxes *)
Definition gens (k : R) (b : box3) : list vec3 :=
  [vscale (k * (zBox3DSpan b 0 / 2)) (zBox3DAxis b 0); vscale (k * (zBox3DSpan b 1 / 2)) (zBox3DAxis b 1); vscale (k * (zBox3DSpan b 2 / 2)) (zBox3DAxis b 2)].
Lemma hw_app a b n : hw (a ++ b) n = hw a n + hw b n.
Proof. induction a; cbn [hw app]; [ring|]. rewrite IHa. ring. Qed.
Lemma hw_gens k b n : 0 <= k -> 0 <= vx (bspan b) -> 0 <= vy (bspan b) -> 0 <= vz (bspan b) -> hw (gens k b) n = k * halfwidth b n.
Proof.
  intros. unfold gens, halfwidth. cbn [hw]. unfold zBox3DSpan; cbn [vnth]. rewrite !dot_scale_r, !Rabs_mult.
  rewrite !(Rabs_right k), !(Rabs_right (_ / 2)) by lra. rewrite !(dot_comm n). field.
Qed.
Lemma nearly b1 b2 : good_box b1 -> good_box b2 -> 0 < vx (bspan b1) -> 0 < vy (bspan b1) -> 0 < vz (bspan b1) ->
  forall k, 0 < k -> spanning (gens k b1 ++ gens k b2).
Proof.
  intros (HI & _) _ Sx Sy Sz k Hk r Hr. rewrite <- (iso_inv_r _ r HI).
  replace (mvec (mtr (fatt (bframe b1))) r) with v3zero; [apply mvec_zero|].
  assert (K : forall i, (i < 3)%nat -> dot r (zBox3DAxis b1 i) = 0).
  { intros i Hi.
    assert (G : forall s, 0 < s -> dot r (vscale (k * (s / 2)) (zBox3DAxis b1 i)) = 0 -> dot r (zBox3DAxis b1 i) = 0).
    { intros s Hs E. rewrite dot_scale_r in E. apply Rmult_integral in E. destruct E as [E|E]; [|exact E]. exfalso.
      assert (0 < k * (s / 2)) by (apply Rmult_lt_0_compat; lra). lra. }
    destruct i as [|[|[|i]]]; [apply (G (zBox3DSpan b1 0))|apply (G (zBox3DSpan b1 1))|apply (G (zBox3DSpan b1 2))|lia]; auto; apply Hr; unfold gens; cbn; tauto. }
  pose proof (K 0%nat ltac:(lia)). pose proof (K 1%nat ltac:(lia)). pose proof (K 2%nat ltac:(lia)). unfold zBox3DAxis in *.
  apply vec3_ext; spec_unfold; lra.
Qed.
Lemma uniform_k {A} (P : A -> R -> Prop) (L : list A) :
  (forall a k k', P a k -> k <= k' -> P a k') -> (forall a, In a L -> exists k, k < 1 /\ P a k) -> exists k, 0 < k < 1 /\ forall a, In a L -> P a k.
Proof.
  intros Mono. induction L as [|a L IH]; intros H.
  - exists (1/2). split; [lra|]. intros a [].
  - destruct IH as (k & Hk & K); [intros; apply H; cbn; auto|]. destruct (H a (or_introl eq_refl)) as (k' & Hk' & K').
    exists (Rmax k k'). pose proof (Rmax_l k k'). pose proof (Rmax_r k k'). split; [split; [lra|apply Rmax_lub_lt; lra]|].
    intros b [<-|Hb]; eauto.
Qed.
Lemma perp_iff b1 i b2 j l : (i < 3)%nat -> (j < 3)%nat -> let c := cross (zBox3DAxis b1 i) (zBox3DAxis b2 j) in
  ~ negligible c -> _zColChkBox3DPerp b1 i b2 j l = true -> Rabs (dot l c) < halfwidth b1 c + halfwidth b2 c.
Proof.
  intros Hi Hj c T. unfold _zColChkBox3DPerp. cbv zeta. change (zVec3DOuterProd (zBox3DAxis b1 i) (zBox3DAxis b2 j)) with c.
  rewrite (proj2 (zVec3DIsTiny_false c) T). destruct (normalize3_ok c c T) as (n & En & Nn & Ec). unfold zVec3DNormalizeDRC. rewrite En. cbn [snd].
  pose proof (nonneg_norm_pos _ T) as Hp.
  assert (E1 : dot (zBox3DAxis b1 i) n = 0).
  { apply (Rmult_eq_reg_l (norm c)); [|lra]. rewrite Rmult_0_r, <- dot_scale_r, Ec. unfold c. spec_unfold. ring. }
  assert (E2 : dot (zBox3DAxis b2 j) n = 0).
  { apply (Rmult_eq_reg_l (norm c)); [|lra]. rewrite Rmult_0_r, <- dot_scale_r, Ec. unfold c. spec_unfold. ring. }
  rewrite Rltb_true. zvg. intros K.
  assert (K' : Rabs (dot l n) < halfwidth b1 n + halfwidth b2 n).
  { rewrite (drop_axis b1 i n Hi E1), (drop_axis b2 j n Hj E2). eapply Rlt_le_trans; [exact K|]. apply Req_le; field. }
  rewrite <- Ec at 1 2 3. rewrite !halfwidth_scale, dot_scale_r, Rabs_mult. rewrite (Rabs_right (norm c)) by lra.
  rewrite <- Rmult_plus_distr_l. apply Rmult_lt_compat_l; [exact Hp|exact K'].
Qed.
Lemma cross_cols m : cross (col0 m) (col1 m) = col2 (mtr (madj m)) /\ cross (col1 m) (col2 m) = col0 (mtr (madj m)) /\ cross (col2 m) (col0 m) = col1 (mtr (madj m)).
Proof. repeat split; apply vec3_ext; unfold madj; spec_unfold; ring. Qed.
Lemma col_mscale k m : col0 (mscale k m) = vscale k (col0 m) /\ col1 (mscale k m) = vscale k (col1 m) /\ col2 (mscale k m) = vscale k (col2 m).
Proof. repeat split. Qed.
Lemma mtr_mscale k m : mtr (mscale k (mtr m)) = mscale k m.
Proof. mring. Qed.
Lemma sign_scale k v : k = 1 \/ k = -1 -> vscale k v = v \/ vscale k v = vneg v.
Proof. intros [-> | ->]; [left|right]; vring. Qed.
Lemma cross_own m : isometry m -> (cross (col0 m) (col1 m) = col2 m \/ cross (col0 m) (col1 m) = vneg (col2 m)) /\
  (cross (col1 m) (col2 m) = col0 m \/ cross (col1 m) (col2 m) = vneg (col0 m)) /\
  (cross (col2 m) (col0 m) = col1 m \/ cross (col2 m) (col0 m) = vneg (col1 m)).
Proof.
  intros H. assert (D : mdet m * mdet m = 1). { rewrite <- (mdet_mtr m) at 1. rewrite <- mdet_mmul, H. apply mdet_mid. }
  assert (D' : mdet m = 1 \/ mdet m = -1).
  { assert (Z : (mdet m - 1) * (mdet m + 1) = 0) by lra. apply Rmult_integral in Z. lra. }
  assert (A : mtr (madj m) = mscale (mdet m) m).
  { assert (E : madj m = mscale (mdet m) (mtr m)).
    { rewrite <- (mmul_id_r (madj m)), <- (iso_r m H), mmul_assoc, madj_l, mmul_mscale_l, mmul_id_l. reflexivity. }
    rewrite E. apply mtr_mscale. }
  destruct (cross_cols m) as (C0 & C1 & C2). rewrite C0, C1, C2, A.
  destruct (col_mscale (mdet m) m) as (K0 & K1 & K2). rewrite K0, K1, K2. auto using sign_scale.
Qed.
Lemma halfwidth_neg b n : halfwidth b (vneg n) = halfwidth b n.
Proof. replace (vneg n) with (vscale (-1) n) by vring. rewrite halfwidth_scale. rewrite Rabs_left by lra. ring. Qed.
Lemma halfwidth_scale' b k n : halfwidth b (vscale k n) = Rabs k * halfwidth b n.
Proof. apply halfwidth_scale. Qed.
Lemma cross_vscale a b u v : cross (vscale a u) (vscale b v) = vscale (a * b) (cross u v).
Proof. vring. Qed.
Lemma cross_anti u v : cross u v = vneg (cross v u).
Proof. vring. Qed.
Lemma cross_self u : cross u u = v3zero.
Proof. vring. Qed.
(** all tests passed: strict inequality along the cross product of any two axes *)
Definition passes (b1 b2 : box3) (n : vec3) : Prop :=
  Rabs (dot (vsub (zBox3DCenter b1) (zBox3DCenter b2)) n) < halfwidth b1 n + halfwidth b2 n.
Lemma passes_scale b1 b2 k n : passes b1 b2 n -> k <> 0 -> passes b1 b2 (vscale k n).
Proof.
  intros H Hk. unfold passes in *. rewrite dot_scale_r, !halfwidth_scale, Rabs_mult, <- Rmult_plus_distr_l.
  apply Rmult_lt_compat_l; [apply Rabs_pos_lt, Hk|exact H].
Qed.
Lemma passes_neg b1 b2 n : passes b1 b2 n -> passes b1 b2 (vneg n).
Proof. intros H. replace (vneg n) with (vscale (-1) n) by vring. apply passes_scale; [exact H|lra]. Qed.
Lemma sat_passes b1 b2 : good_box b1 -> good_box b2 -> clear_axes b1 b2 -> zColChkBox3D b1 b2 = true ->
  forall u v, (exists i, (i < 3)%nat /\ (u = zBox3DAxis b1 i \/ u = zBox3DAxis b2 i)) -> (exists i, (i < 3)%nat /\ (v = zBox3DAxis b1 i \/ v = zBox3DAxis b2 i)) ->
  cross u v = v3zero \/ passes b1 b2 (cross u v).
Proof.
  intros (H1 & _) (H2 & _) Cl T. rewrite sat_all in T. rewrite forallb_forall in T.
  set (l := vsub (zBox3DCenter b1) (zBox3DCenter b2)).
  assert (A1 : forall i, (i < 3)%nat -> passes b1 b2 (zBox3DAxis b1 i)).
  { intros i Hi. unfold passes. rewrite Rplus_comm. apply along_iff; auto. apply T. unfold sat_dirs. cbv zeta.
    do 3 (destruct i as [|i]; [cbn [In]; tauto|]). lia. }
  assert (A2 : forall i, (i < 3)%nat -> passes b1 b2 (zBox3DAxis b2 i)).
  { intros i Hi. unfold passes. apply along_iff; auto. apply T. unfold sat_dirs. cbv zeta.
    do 3 (destruct i as [|i]; [cbn [In]; tauto|]). lia. }
  assert (A12 : forall i j, (i < 3)%nat -> (j < 3)%nat -> cross (zBox3DAxis b1 i) (zBox3DAxis b2 j) = v3zero \/ passes b1 b2 (cross (zBox3DAxis b1 i) (zBox3DAxis b2 j))).
  { intros i j Hi Hj. destruct (Cl i j Hi Hj) as [Z|N]; [left; exact Z|right]. apply perp_iff; auto. apply T. unfold sat_dirs. cbv zeta.
    do 3 (destruct i as [|i]; [do 3 (destruct j as [|j]; [cbn [In]; tauto|]); lia|]). lia. }
  assert (Own : forall b, isometry (fatt (bframe b)) -> (forall i, (i < 3)%nat -> passes b1 b2 (zBox3DAxis b i)) ->
    forall i j, (i < 3)%nat -> (j < 3)%nat -> cross (zBox3DAxis b i) (zBox3DAxis b j) = v3zero \/ passes b1 b2 (cross (zBox3DAxis b i) (zBox3DAxis b j))).
  { intros b Hb P. pose proof (P 0%nat ltac:(lia)) as P0. pose proof (P 1%nat ltac:(lia)) as P1. pose proof (P 2%nat ltac:(lia)) as P2.
    destruct (cross_own _ Hb) as (C0 & C1 & C2). unfold zBox3DAxis in P0, P1, P2.
    assert (Q0 : passes b1 b2 (cross (col0 (fatt (bframe b))) (col1 (fatt (bframe b))))) by (destruct C0 as [-> | ->]; [|apply passes_neg]; assumption).
    assert (Q1 : passes b1 b2 (cross (col1 (fatt (bframe b))) (col2 (fatt (bframe b))))) by (destruct C1 as [-> | ->]; [|apply passes_neg]; assumption).
    assert (Q2 : passes b1 b2 (cross (col2 (fatt (bframe b))) (col0 (fatt (bframe b))))) by (destruct C2 as [-> | ->]; [|apply passes_neg]; assumption).
    intros i j Hi Hj.
    destruct i as [|[|[|i]]]; try lia; destruct j as [|[|[|j]]]; try lia; unfold zBox3DAxis; try (left; apply cross_self); right; try assumption;
    rewrite cross_anti; apply passes_neg; assumption. }
  intros u v (i & Hi & [-> | ->]) (j & Hj & [-> | ->]); auto.
  rewrite cross_anti. destruct (A12 j i Hj Hi) as [Z|P]; [left; rewrite Z; vring|right; apply passes_neg, P].
Qed.
Lemma sat_complete b1 b2 : good_box b1 -> good_box b2 ->
  0 < vx (bspan b1) -> 0 < vy (bspan b1) -> 0 < vz (bspan b1) -> 0 < vx (bspan b2) -> 0 < vy (bspan b2) -> 0 < vz (bspan b2) ->
  clear_axes b1 b2 -> zColChkBox3D b1 b2 = true -> exists p, inside_obb b1 0 p /\ inside_obb b2 0 p.
Proof.
  intros G1 G2 X1 Y1 Z1 X2 Y2 Z2 Cl T.
  pose proof (sat_passes b1 b2 G1 G2 Cl T) as SP.
  set (axes := [zBox3DAxis b1 0; zBox3DAxis b1 1; zBox3DAxis b1 2; zBox3DAxis b2 0; zBox3DAxis b2 1; zBox3DAxis b2 2]).
  set (l := vsub (zBox3DCenter b1) (zBox3DCenter b2)) in *.
  assert (AX : forall u, In u axes -> exists i, (i < 3)%nat /\ (u = zBox3DAxis b1 i \/ u = zBox3DAxis b2 i)).
  { intros u Hu. unfold axes in Hu. cbn [In] in Hu.
    destruct Hu as [<-|[<-|[<-|[<-|[<-|[<-|[]]]]]]]; [exists 0%nat|exists 1%nat|exists 2%nat|exists 0%nat|exists 1%nat|exists 2%nat]; auto. }
  assert (HWP : forall b n, good_box b -> 0 <= halfwidth b n).
  { intros b n (_ & Sx & Sy & Sz). unfold halfwidth, zBox3DSpan; cbn [vnth].
    pose proof (Rmult_le_pos _ _ (Rabs_pos (dot (zBox3DAxis b 0) n)) Sx). pose proof (Rmult_le_pos _ _ (Rabs_pos (dot (zBox3DAxis b 1) n)) Sy).
    pose proof (Rmult_le_pos _ _ (Rabs_pos (dot (zBox3DAxis b 2) n)) Sz). lra. }
  destruct (uniform_k (fun uv k => Rabs (dot (cross (fst uv) (snd uv)) l) <= k * (halfwidth b1 (cross (fst uv) (snd uv)) + halfwidth b2 (cross (fst uv) (snd uv)))) (list_prod axes axes)) as (k & Hk & K).
  { intros [u v] k k' H L. cbn [fst snd] in *. eapply Rle_trans; [exact H|]. apply Rmult_le_compat_r; [|exact L].
    pose proof (HWP b1 (cross u v) G1). pose proof (HWP b2 (cross u v) G2). lra. }
  { intros [u v] H. apply in_prod_iff in H. destruct H as [Hu Hv]. cbn [fst snd].
    destruct (SP u v (AX u Hu) (AX v Hv)) as [Z|P].
    - exists 0. split; [lra|]. rewrite Z. replace (dot v3zero l) with 0 by (spec_unfold; ring). rewrite Rabs_R0. lra.
    - unfold passes in P. fold l in P. rewrite dot_comm in P. set (w := halfwidth b1 _ + halfwidth b2 _) in *.
      assert (0 < w) by (pose proof (Rabs_pos (dot (cross u v) l)); lra).
      exists (Rabs (dot (cross u v) l) / w). split; [apply (Rmult_lt_reg_r w); [lra|]; unfold Rdiv; rewrite Rmult_assoc, Rinv_l; lra|].
      apply Req_le. field. lra. }
  assert (Zn : zono (gens k b1 ++ gens k b2) l).
  { apply zono_support. apply facets; [apply nearly; auto; lra|].
    assert (GA : forall g, In g (gens k b1 ++ gens k b2) -> exists s u, g = vscale s u /\ In u axes).
    { intros g Hg. unfold gens in Hg. cbn [In app] in Hg. unfold axes.
      destruct Hg as [<-|[<-|[<-|[<-|[<-|[<-|[]]]]]]]; do 2 eexists; (split; [reflexivity|cbn [In]; tauto]). }
    intros g1 g2 I1 I2 _. destruct (GA _ I1) as (s1 & u1 & -> & J1). destruct (GA _ I2) as (s2 & u2 & -> & J2).
    rewrite cross_vscale, hw_app, !hw_gens by lra. rewrite !halfwidth_scale, dot_scale_l, Rabs_mult.
    pose proof (K (u1, u2) ltac:(apply in_prod; assumption)) as KK. cbn [fst snd] in KK.
    pose proof (Rmult_le_compat_l _ _ _ (Rabs_pos (s1 * s2)) KK). lra. }
  unfold gens in Zn. cbn [zono app] in Zn.
  destruct Zn as (t1 & T1 & t2 & T2 & t3 & T3 & t4 & T4 & t5 & T5 & t6 & T6 & E).
  assert (Bd : forall t s, Rabs t <= 1 -> 0 < s -> Rabs (t * (k * (s / 2))) < s / 2).
  { intros t s Ht Hs. rewrite Rabs_mult, (Rabs_right (k * (s / 2))) by (apply Rle_ge, Rmult_le_pos; lra).
    assert (k * (s / 2) < s / 2) by nra. assert (0 <= k * (s / 2)) by (apply Rmult_le_pos; lra).
    pose proof (Rabs_pos t). nra. }
  assert (BdN : forall t s, Rabs t <= 1 -> 0 < s -> Rabs (- (t * (k * (s / 2)))) < s / 2) by (intros; rewrite Rabs_Ropp; auto).
  exists (act (bframe b2) (V3 (t4 * (k * (vx (bspan b2) / 2))) (t5 * (k * (vy (bspan b2) / 2))) (t6 * (k * (vz (bspan b2) / 2))))). split.
  - exists (V3 (- (t1 * (k * (vx (bspan b1) / 2)))) (- (t2 * (k * (vy (bspan b1) / 2)))) (- (t3 * (k * (vz (bspan b1) / 2))))).
    cbn [vx vy vz]. rewrite !Rplus_0_r. split; [auto|]. split; [auto|]. split; [auto|].
    clear - E. unfold l in E. unfold zBox3DCenter, zBox3DSpan, zBox3DAxis in E; cbn [vnth] in E. unfold act. rewrite !mvec_cols. cbn [vx vy vz].
    apply (f_equal (fun v => (vx v, vy v, vz v))) in E. unfold vsub, vscale, v3zero in E; cbn [vx vy vz] in E. injection E as E1 E2 E3.
    apply vec3_ext; unfold vadd, vscale, col0, col1, col2; cbn [vx vy vz]; lra.
  - exists (V3 (t4 * (k * (vx (bspan b2) / 2))) (t5 * (k * (vy (bspan b2) / 2))) (t6 * (k * (vz (bspan b2) / 2)))).
    cbn [vx vy vz]. rewrite !Rplus_0_r. auto.
Qed.
Lemma inside_in b p : inside_obb b 0 p -> in_obb b p.
Proof. intros (u & A & B & C & E). exists u. rewrite Rplus_0_r in *. repeat split; auto; lra. Qed.
Lemma sat_exact b1 b2 : good_box b1 -> good_box b2 ->
  0 < vx (bspan b1) -> 0 < vy (bspan b1) -> 0 < vz (bspan b1) -> 0 < vx (bspan b2) -> 0 < vy (bspan b2) -> 0 < vz (bspan b2) ->
  clear_axes b1 b2 -> zColChkBox3D b1 b2 = true <-> exists p, inside_obb b1 0 p /\ inside_obb b2 0 p.
Proof.
  intros G1 G2 X1 Y1 Z1 X2 Y2 Z2 Cl. split; [apply sat_complete; auto|].
  intros (p & P & Q). apply (sat_no_miss b1 b2 p); [apply G1|apply G2|]. left. split; [apply inside_in, P|exact Q].
Qed.
Lemma iso_mid : isometry mid.
Proof. unfold isometry. mring. Qed.
Lemma sat_touching : exists b1 b2 p, solid b1 /\ solid b2 /\ in_obb b1 p /\ in_obb b2 p /\ zColChkBox3D b1 b2 = false.
Proof.
  exists (BX (F3 v3zero mid) (V3 1 1 1)), (BX (F3 (V3 1 0 0) mid) (V3 1 1 1)), (V3 (1/2) 0 0).
  unfold solid; cbn [bframe bspan fatt vx vy vz]. split; [split; [apply iso_mid|lra]|]. split; [split; [apply iso_mid|lra]|].
  split; [|split].
  - exists (V3 (1/2) 0 0). cbn [bspan bframe vx vy vz]. rewrite !abs_le_iff. repeat split; try lra. unfold act; cbn [fpos fatt]. vring.
  - exists (V3 (-(1/2)) 0 0). cbn [bspan bframe vx vy vz]. rewrite !abs_le_iff. repeat split; try lra. unfold act; cbn [fpos fatt]. apply vec3_ext; spec_unfold; lra.
  - rewrite sat_all. unfold sat_dirs. cbv zeta. cbn [forallb].
    destruct (_zColChkBox3DAlong _ 0 _ _) eqn:E at 1; [|reflexivity]. exfalso.
    apply along_iff in E; [|apply iso_mid|lia].
    unfold halfwidth, zBox3DSpan, zBox3DAxis, zBox3DCenter in E; cbn [bframe bspan fatt fpos vnth vx vy vz] in E.
    replace (dot (zVec3DSub v3zero (V3 1 0 0)) (col0 mid)) with (-1) in E by (zvg; spec_unfold; ring).
    replace (dot (col0 mid) (col0 mid)) with 1 in E by (spec_unfold; ring).
    replace (dot (col1 mid) (col0 mid)) with 0 in E by (spec_unfold; ring).
    replace (dot (col2 mid) (col0 mid)) with 0 in E by (spec_unfold; ring).
    rewrite Rabs_R0, Rabs_R1, (Rabs_left (-1)) in E by lra. lra.
Qed.
Lemma sat_ex : let b1 := BX (F3 v3zero mid) (V3 1 1 1) in let b2 := BX (F3 (V3 (1/4) 0 0) mid) (V3 1 1 1) in
  solid b1 /\ solid b2 /\ clear_axes b1 b2 /\ inside_obb b1 0 (V3 0 0 0) /\ inside_obb b2 0 (V3 0 0 0).
Proof.
  cbv zeta. unfold solid; cbn [bframe bspan fatt vx vy vz]. split; [split; [apply iso_mid|lra]|]. split; [split; [apply iso_mid|lra]|].
  split; [|split].
  - assert (L : forall v, dot v v = 1 -> ~ negligible v).
    { intros v Hv. apply long_not_negligible. rewrite (proj1 (norm_unit v) Hv). pose proof zTOL_small. lra. }
    intros i j Hi Hj. cbv zeta. cbn [bframe fatt].
    destruct i as [|[|[|i]]]; try lia; destruct j as [|[|[|j]]]; try lia; cbn [axis_of]; try (left; vring); right; apply L; spec_unfold; ring.
  - exists (V3 0 0 0). cbn [bspan bframe vx vy vz]. rewrite !abs_lt_iff. repeat split; try lra. unfold act; cbn [fpos fatt]. vring.
  - exists (V3 (-(1/4)) 0 0). cbn [bspan bframe vx vy vz]. rewrite !abs_lt_iff. repeat split; try lra. unfold act; cbn [fpos fatt]. apply vec3_ext; spec_unfold; lra.
Qed.
Lemma sat_exact_solid b1 b2 : solid b1 -> solid b2 -> clear_axes b1 b2 ->
  zColChkBox3D b1 b2 = true <-> exists p, inside_obb b1 0 p /\ inside_obb b2 0 p.
Proof.
  intros (I1 & P1) (I2 & P2). apply sat_exact; try (split; [assumption|]); lra.
Qed.

(** Facts about sets of shapes. *)
From Verif Require Import Base Spec SpecShape SpecMulti ModelMulti FactsVec FactsAlg FactsElem FactsRound FactsCone FactsEllips FactsSolid FactsObb FactsPH4.
From Coq Require Import List Lia Lra.
Import ListNotations.
Open Scope R_scope.

(** the solid of a shape *)
Definition shape_solid (s : shape3) : vec3 -> Prop :=
  match s with
  | ShBox b => in_obb b
  | ShSphere s => ball (scen s) (srad s)
  | ShEllips e => in_ellipsoid (elf e) (elrad e)
  | ShCyl c => in_cyl (cc0 c) (cc1 c) (crad c)
  | ShECyl c => in_ecyl (ec0 c) (ec1 c) (er0 c) (er1 c) (ev0 c) (ev1 c)
  | ShCapsule c => in_capsule (cc0 c) (cc1 c) (crad c)
  | ShCone c => in_cone (kcen c) (kvert c) (krad c)
  | ShPH ph => FactsPH4.solid ph
  end.
(** shapes in good order *)
Definition shape_ok (s : shape3) : Prop :=
  match s with
  | ShBox b => good_box b
  | ShSphere s => 0 < srad s
  | ShEllips e => isometry (fatt (elf e)) /\ 0 < vx (elrad e) /\ 0 < vy (elrad e) /\ 0 < vz (elrad e)
  | ShCyl c => ~ negligible (vsub (cc1 c) (cc0 c)) /\ 0 <= crad c
  | ShECyl c => 2 * zTOL <= norm (vsub (ec1 c) (ec0 c)) /\ norm (vsub (ec1 c) (ec0 c)) * norm (vsub (ec1 c) (ec0 c)) * zTOL <= 1 /\
      0 < er0 c /\ 0 < er1 c /\ radial_basis (vsub (ec1 c) (ec0 c)) (ev0 c) (ev1 c)
  | ShCapsule c => ~ negligible (vsub (cc1 c) (cc0 c)) /\ 0 <= crad c
  | ShCone c => 2 * zTOL <= norm (vsub (kvert c) (kcen c)) /\ 0 < krad c
  | ShPH ph => sound_ph ph /\ convex_surface (solid_tris ph) /\ exists y, FactsPH4.solid ph y
  end.
(** points at which the closest point of one shape is not affected by the exceptions found for its class:
    not above the second cap of a cylinder; not within the tolerance of the axis of a cone without being on it;
    not within the tolerance outside an ellipsoid; for a polyhedron, not on the plane of a facet it does not belong to *)
Definition ordinary (s : shape3) (p : vec3) : Prop :=
  match s with
  | ShCyl c => forall h w, axial (cc0 c) (cc1 c) p h w -> norm (vsub (cc1 c) (cc0 c)) < h -> crad c < norm w
  | ShCone c => forall h w, axial (kcen c) (kvert c) p h w -> w = v3zero \/ ~ negligible w
  | ShEllips e => inside_ellipsoid (elf e) (vadd (elrad e) (V3 zTOL zTOL zTOL)) p -> in_ellipsoid (elf e) (elrad e) p
  | ShPH ph => FactsPH4.solid ph p -> forall t, List.In t (solid_tris ph) -> FactsPH4.height t p = 0 -> in_triangle (tv0 t) (tv1 t) (tv2 t) p
  | _ => True
  end.

Lemma nearest_self (S : vec3 -> Prop) p : S p -> nearest S p p.
Proof. intros H. split; [exact H|]. intros x _. rewrite FactsPH4.dist_self. apply norm_nonneg. Qed.
Lemma nearest_split (S : vec3 -> Prop) p cp : nearest S p cp -> (dist p cp <= 0 /\ cp = p) \/ (0 < dist p cp /\ dist p cp = dist p cp).
Proof.
  intros _. destruct (Rle_lt_dec (dist p cp) 0) as [L|L]; [left|right; auto]. split; [exact L|]. symmetry. apply dist_zero_iff.
  pose proof (norm_nonneg (vsub p cp)). unfold dist in *. lra.
Qed.
Lemma member_closest ans s p : exact_solver ans -> shape_ok s -> ordinary s p ->
  match zShape3DClosest ans s p with
  | Some (d, cp) => nearest (shape_solid s) p cp /\ (d <= 0 /\ cp = p \/ 0 < d /\ d = dist p cp)
  | None => match s with ShEllips _ | ShECyl _ => ~ shape_solid s p | _ => False end
  end.
Proof.
  intros EX OK OR. destruct s as [b|s|e|c|c|c|c|ph]; cbn [zShape3DClosest shape_solid shape_ok ordinary] in *.
  - destruct (obb_closest b p OK) as (N & E & _). destruct (zBox3DClosest b p) as [d cp]. cbn [fst snd] in *. split; [exact N|]. rewrite E. apply (nearest_split _ _ _ N).
  - destruct (sphere_closest s p OK) as (cp & -> & N & _ & A & B). split; [exact N|]. destruct (Rle_lt_dec (dist p (scen s)) (srad s)) as [L|L].
    + left. split; [lra|auto].
    + right. split; [lra|]. symmetry. apply B. lra.
  - destruct OK as (O1 & O2 & O3 & O4). pose proof (ellips3_closest ans e p EX O1 O2 O3 O4) as C. pose proof (ellips3_inside e p zTOL O1) as I.
    destruct (zEllips3DClosest ans e p) as [[d cp]|].
    + destruct (zEllips3DPointIsInside e p zTOL).
      * destruct C as (-> & ->). split; [apply nearest_self, OR, I; reflexivity|]. left. split; [lra|reflexivity].
      * destruct C as (N & ->). split; [exact N|]. apply (nearest_split _ _ _ N).
    + intros K. apply C. destruct K as (q & K & ->). exists q. split; [|reflexivity]. 
      pose proof zTOL_pos as T. cbn [vadd vx vy vz].
      assert (Q : forall x r, 0 < r -> x / (r + zTOL) * (x / (r + zTOL)) <= x / r * (x / r) * (r / (r + zTOL) * (r / (r + zTOL))) ) by (intros x r Hr; right; field; lra).
      assert (F : forall r, 0 < r -> 0 <= r / (r + zTOL) * (r / (r + zTOL)) < 1).
      { intros r Hr. assert (0 < r / (r + zTOL)) by (apply Rdiv_lt_0_compat; lra). assert (r / (r + zTOL) < 1). { apply (Rmult_lt_reg_r (r + zTOL)); [lra|]. unfold Rdiv. rewrite Rmult_assoc, Rinv_l by lra. lra. } nra. }
      pose proof (Q (vx q) _ O2). pose proof (Q (vy q) _ O3). pose proof (Q (vz q) _ O4).
      pose proof (F _ O2). pose proof (F _ O3). pose proof (F _ O4).
      set (X := vx q / vx (elrad e)) in *. set (Y := vy q / vy (elrad e)) in *. set (Z := vz q / vz (elrad e)) in *.
      set (fx := vx (elrad e) / (vx (elrad e) + zTOL) * (vx (elrad e) / (vx (elrad e) + zTOL))) in *.
      set (fy := vy (elrad e) / (vy (elrad e) + zTOL) * (vy (elrad e) / (vy (elrad e) + zTOL))) in *.
      set (fz := vz (elrad e) / (vz (elrad e) + zTOL) * (vz (elrad e) / (vz (elrad e) + zTOL))) in *.
      assert (0 <= X * X) by nra. assert (0 <= Y * Y) by nra. assert (0 <= Z * Z) by nra.
      set (m := Rmax fx (Rmax fy fz)). assert (m < 1) by (unfold m; repeat apply Rmax_lub_lt; lra).
      assert (fx <= m) by apply Rmax_l. assert (fy <= m) by (unfold m; eapply Rle_trans; [apply Rmax_l|apply Rmax_r]). assert (fz <= m) by (unfold m; eapply Rle_trans; [apply Rmax_r|apply Rmax_r]).
      assert (0 <= m) by lra.
      assert (X * X * fx <= X * X * m) by nra. assert (Y * Y * fy <= Y * Y * m) by nra. assert (Z * Z * fz <= Z * Z * m) by nra. nra.
  - destruct OK as (O1 & O2). destruct (cyl_closest c p O1 O2) as (dv & cp & h & w & AX & -> & _ & N & _ & B). split; [exact N|]. rewrite B; [apply (nearest_split _ _ _ N)|].
    intros (L & M). specialize (OR h w AX L). lra.
  - destruct OK as (O1 & O2 & O3 & O4 & O5). pose proof (ecyl_closest ans c p _ EX eq_refl O1 O2 O3 O4 O5) as C. destruct (zECyl3DClosest ans c p) as [[d cp]|]; [|exact C].
    destruct C as (N & ->). split; [exact N|]. apply (nearest_split _ _ _ N).
  - destruct OK as (O1 & O2). destruct (capsule_closest c p O1 O2) as (cp & h & w & AX & -> & N & _). split; [exact N|]. apply (nearest_split _ _ _ N).
  - destruct OK as (O1 & O2). destruct (cone_closest c p O1 O2 OR) as (cp & -> & _ & N). split; [exact N|]. apply (nearest_split _ _ _ N).
  - destruct OK as (O1 & O2 & O3). destruct (convex_closest ph p O1 O2 O3) as (d & cp & -> & A & _ & B).
    assert (D : FactsPH4.solid ph p \/ ~ FactsPH4.solid ph p).
    { unfold FactsPH4.solid, below_all. clear. generalize (solid_tris ph). intros l. induction l as [|t l [IH|IH]].
      - left. intros t [].
      - destruct (Rle_lt_dec (FactsPH4.height t p) 0) as [L|L]; [left; intros u [<-|U]; auto|right]. intros K. specialize (K t (or_introl eq_refl)). lra.
      - right. intros K. apply IH. intros u U. apply K. right. exact U. }
    destruct D as [D|D].
    + destruct (proj2 (B D) (OR D)) as (-> & ->). split; [apply nearest_self, D|]. left. split; [lra|reflexivity].
    + destruct (A D) as (N & -> & P). split; [exact N|]. right. auto.
Qed.

(** ** the least of the members *)
Definition multi_step ans p := fun (acc : option (R * vec3)) s =>
  match acc, zShape3DClosest ans s p with
  | Some (dist_min, closestpoint), Some (dist, cp) => if Rltb dist dist_min then Some (dist, cp) else acc
  | _, _ => None
  end.
Lemma multi_none ans p ms : fold_left (multi_step ans p) ms None = None.
Proof. induction ms; [reflexivity|exact IHms]. Qed.
Lemma multi_fold ans p ms : forall d0 cp0, match fold_left (multi_step ans p) ms (Some (d0, cp0)) with
  | Some (d, cp) => (Forall (fun s => exists d' cp', zShape3DClosest ans s p = Some (d', cp') /\ d <= d') ms) /\ d <= d0 /\
      ((d, cp) = (d0, cp0) \/ exists s, List.In s ms /\ zShape3DClosest ans s p = Some (d, cp))
  | None => exists s, List.In s ms /\ zShape3DClosest ans s p = None
  end.
Proof.
  induction ms as [|s ms IH]; intros d0 cp0; cbn [fold_left].
  - split; [constructor|]. split; [lra|left; reflexivity].
  - unfold multi_step at 2. destruct (zShape3DClosest ans s p) as [[d1 cp1]|] eqn:E.
    + destruct (Rltb d1 d0) eqn:L.
      * apply Rltb_true in L. specialize (IH d1 cp1). destruct (fold_left (multi_step ans p) ms (Some (d1, cp1))) as [[d cp]|].
        -- destruct IH as (A & B & C). split; [constructor; [exists d1, cp1; auto|exact A]|]. split; [lra|]. right. destruct C as [C|(u & U & C)].
           ++ exists s. split; [left; reflexivity|]. rewrite C. exact E.
           ++ exists u. split; [right; exact U|exact C].
        -- destruct IH as (u & U & C). exists u. split; [right; exact U|exact C].
      * apply Rltb_false in L. specialize (IH d0 cp0). destruct (fold_left (multi_step ans p) ms (Some (d0, cp0))) as [[d cp]|].
        -- destruct IH as (A & B & C). split; [constructor; [exists d1, cp1; split; [exact E|lra]|exact A]|]. split; [lra|]. destruct C as [C|(u & U & C)]; [left; exact C|].
           right. exists u. split; [right; exact U|exact C].
        -- destruct IH as (u & U & C). exists u. split; [right; exact U|exact C].
    + rewrite multi_none. exists s. split; [left; reflexivity|exact E].
Qed.
(** the answer is that of a member, and no member has a smaller distance; undefined exactly without members or
    when it is undefined for a member *)
Lemma multi_least ans ms p : match zMultiShape3DClosest ans ms p with
  | Some (d, cp) => (exists s, List.In s ms /\ zShape3DClosest ans s p = Some (d, cp)) /\
      forall s, List.In s ms -> exists d' cp', zShape3DClosest ans s p = Some (d', cp') /\ d <= d'
  | None => ms = [] \/ exists s, List.In s ms /\ zShape3DClosest ans s p = None
  end.
Proof.
  unfold zMultiShape3DClosest. destruct ms as [|s ms]; [left; reflexivity|]. fold (multi_step ans p). destruct (zShape3DClosest ans s p) as [[d0 cp0]|] eqn:E.
  - pose proof (multi_fold ans p ms d0 cp0) as H. destruct (fold_left _ _ _) as [[d cp]|].
    + destruct H as (A & B & C). split.
      * destruct C as [C|(u & U & C)]; [exists s; split; [left; reflexivity|rewrite C; exact E]|exists u; split; [right; exact U|exact C]].
      * intros u [<-|U]; [exists d0, cp0; auto|]. rewrite Forall_forall in A. apply A, U.
    + right. destruct H as (u & U & C). exists u. split; [right; exact U|exact C].
  - rewrite multi_none. right. exists s. split; [left; reflexivity|exact E].
Qed.
Lemma union_solid ms p : union (map shape_solid ms) p <-> exists s, List.In s ms /\ shape_solid s p.
Proof.
  unfold union. split; [intros (S & I & H); apply in_map_iff in I as (s & <- & I); eauto|intros (s & I & H)].
  exists (shape_solid s). split; [apply in_map, I|exact H].
Qed.
Lemma multi_union ans ms p d cp : exact_solver ans -> Forall shape_ok ms -> Forall (fun s => ordinary s p) ms ->
  zMultiShape3DClosest ans ms p = Some (d, cp) ->
  nearest (union (map shape_solid ms)) p cp /\
  (union (map shape_solid ms) p -> d <= 0 /\ cp = p) /\ (~ union (map shape_solid ms) p -> 0 < d /\ d = dist p cp).
Proof.
  intros EX OK OR E. pose proof (multi_least ans ms p) as L. rewrite E in L. destruct L as ((s & I & C) & M).
  rewrite Forall_forall in OK, OR.
  assert (G : forall u d' cp', List.In u ms -> zShape3DClosest ans u p = Some (d', cp') -> nearest (shape_solid u) p cp' /\ (d' <= 0 /\ cp' = p \/ 0 < d' /\ d' = dist p cp')).
  { intros u d' cp' U Cu. pose proof (member_closest ans u p EX (OK u U) (OR u U)) as Z. rewrite Cu in Z. exact Z. }
  destruct (G s d cp I C) as (N & B).
  assert (NU : nearest (union (map shape_solid ms)) p cp).
  { split; [apply union_solid; exists s; split; [exact I|apply N]|]. intros x X. apply union_solid in X as (u & U & X). destruct B as [(B & ->)|(B & B')]; [rewrite FactsPH4.dist_self; apply norm_nonneg|].
    destruct (M u U) as (d' & cp' & Cu & L). destruct (G u d' cp' U Cu) as ((_ & Nu) & [(K & _)|(K & K')]); [lra|]. specialize (Nu x X). lra. }
  split; [exact NU|]. split.
  - intros X. destruct B as [B|(B & B')]; [exact B|]. exfalso. destruct NU as (_ & NU). specialize (NU p X). rewrite FactsPH4.dist_self in NU. lra.
  - intros X. destruct B as [(B & ->)|B]; [|exact B]. exfalso. apply X, NU.
Qed.
(** without ellipsoids and elliptic cylinders the answer always exists *)
Definition quadratic_free (s : shape3) : Prop := match s with ShEllips _ | ShECyl _ => False | _ => True end.
Lemma multi_exists ans ms p : exact_solver ans -> Forall shape_ok ms -> Forall (fun s => ordinary s p) ms -> ms <> [] ->
  Forall quadratic_free ms -> exists d cp, zMultiShape3DClosest ans ms p = Some (d, cp).
Proof.
  intros EX OK OR NE Q. pose proof (multi_least ans ms p) as L. destruct (zMultiShape3DClosest ans ms p) as [[d cp]|]; [eauto|exfalso].
  rewrite Forall_forall in OK, OR, Q. destruct L as [->|(s & I & C)]; [apply NE; reflexivity|]. pose proof (member_closest ans s p EX (OK s I) (OR s I)) as Z. rewrite C in Z.
  specialize (Q s I). destruct s; cbn in *; tauto.
Qed.

(** ** inside tests *)
Lemma multi_inside ms p m : (forall s, List.In s ms -> zShape3DPointIsInside s p m <> None) ->
  exists b, zMultiShape3DPointIsInside ms p m = Some b /\ (b = true <-> exists s, List.In s ms /\ zShape3DPointIsInside s p m = Some true).
Proof.
  induction ms as [|s ms IH]; intros D; cbn [zMultiShape3DPointIsInside].
  - exists false. split; [reflexivity|]. split; [discriminate|intros (s & [] & _)].
  - destruct (zShape3DPointIsInside s p m) as [[]|] eqn:E.
    + exists true. split; [reflexivity|]. split; [intros _; exists s; split; [left; reflexivity|exact E]|reflexivity].
    + destruct IH as (b & -> & B). { intros u U. apply D. right. exact U. } exists b. split; [reflexivity|]. rewrite B. split; intros (u & U & C).
      * exists u. split; [right; exact U|exact C].
      * destruct U as [<-|U]; [congruence|]. exists u. auto.
    + exfalso. apply (D s (or_introl eq_refl) E).
Qed.

(** shapes of positive size, other than capsules *)
Definition inside_ok (s : shape3) : Prop :=
  match s with
  | ShBox b => SpecBox.solid b
  | ShSphere s => 0 < srad s
  | ShEllips e => isometry (fatt (elf e)) /\ 0 < vx (elrad e) /\ 0 < vy (elrad e) /\ 0 < vz (elrad e)
  | ShCyl c => ~ negligible (vsub (cc1 c) (cc0 c)) /\ 0 < crad c
  | ShECyl c => ~ negligible (vsub (ec1 c) (ec0 c)) /\ 0 < er0 c /\ 0 < er1 c /\ radial_basis (vsub (ec1 c) (ec0 c)) (ev0 c) (ev1 c)
  | ShCapsule c => False
  | ShCone c => ~ negligible (vsub (kvert c) (kcen c)) /\ 0 < krad c
  | ShPH ph => sound_ph ph /\ exists y, forall t, List.In t (solid_tris ph) -> FactsPH4.height t y < 0
  end.
Lemma inner_grow (S : vec3 -> Prop) p c : inner_point S p -> exists k, 0 < k /\ S (vadd c (vscale (1 + k) (vsub p c))).
Proof.
  intros (e & He & H). pose proof (norm_nonneg (vsub p c)) as N. exists (e / (2 * (1 + norm (vsub p c)))).
  assert (0 < e / (2 * (1 + norm (vsub p c)))) as K by (apply Rdiv_lt_0_compat; lra). split; [exact K|]. apply H. set (k := e / _) in *.
  assert (E : vsub p (vadd c (vscale (1 + k) (vsub p c))) = vscale (- k) (vsub p c)) by (apply vec3_ext; spec_unfold; ring).
  unfold dist. rewrite E, norm_scale, Rabs_Ropp, (Rabs_right k) by lra.
  assert (k * (2 * (1 + norm (vsub p c))) = e) by (unfold k; field; lra). nra.
Qed.
Lemma frac_lt x k s : 0 < k -> 0 < s -> Rabs ((1 + k) * x) <= s -> Rabs x < s.
Proof. intros K H L. rewrite Rabs_mult, (Rabs_right (1 + k)) in L by lra. pose proof (Rabs_pos x). nra. Qed.

(** Facts on STL files: registration of vertices and facets. *)
From Coq Require Import Lra Lia Permutation.
From Verif Require Import Base Spec SpecFile ModelVec ModelElem ModelPH ModelTree ModelStl FactsAlg FactsVec FactsElem FactsCentre FactsTree.
Open Scope R_scope.

Definition T (ps : list vec3) : tree := fold_left zVec3DTreeAddPoint ps zVec3DTreeInit.
Lemma T_snoc ps v : T (ps ++ [v]) = zVec3DTreeAddPoint (T ps) v.
Proof. unfold T. rewrite fold_left_app. reflexivity. Qed.
Lemma T_size ps : t_size (T ps) = length ps.
Proof. destruct (build_ok ps) as (_ & _ & S). exact S. Qed.
Lemma T_nonnil ps : ps <> [] -> exists s i a p r c0 c1, T ps = Node s i a p r c0 c1.
Proof.
  intros N. assert (S := T_size ps). destruct (T ps) as [|s i a p r c0 c1]; [destruct ps; [congruence|discriminate]|]. eauto 10.
Qed.
Lemma find_in t i : (forall p, t_find t i = Some p -> List.In (i, p) (nodes t)) /\ (t_find t i = None -> forall p, ~ List.In (i, p) (nodes t)).
Proof.
  induction t as [|s j a q r c0 [A0 B0] c1 [A1 B1]]; cbn [t_find nodes]; [split; [discriminate|intros _ p []]|].
  destruct (Nat.eqb_spec j i) as [->|N].
  - split; [intros p E; injection E as <-; now left|discriminate].
  - destruct (t_find c0 i) as [x|] eqn:F0.
    + split; [intros p E; injection E as <-; right; apply in_or_app; left; now apply A0|discriminate].
    + split; [intros p E; right; apply in_or_app; right; now apply A1|]. intros E p [H|H]; [apply pair_equal_spec in H; destruct H as [H _]; congruence|]. apply in_app_or in H. destruct H as [H|H]; [exact (B0 eq_refl p H)|exact (B1 E p H)].
Qed.
Lemma find_T ps i : t_find (T ps) i = nth_error ps i.
Proof.
  destruct (build_ok ps) as (_ & P & _). fold (T ps) in P. destruct (find_in (T ps) i) as [A B]. destruct (t_find (T ps) i) as [p|].
  - symmetry. apply in_ids. eapply Permutation_in; [exact P|]. now apply A.
  - destruct (nth_error ps i) as [q|] eqn:E; [|reflexivity]. exfalso. apply (B eq_refl q). eapply Permutation_in; [symmetry; exact P|]. now apply in_ids.
Qed.
Lemma nodePoint_T junk ps h : ps <> [] -> nodePoint junk (T ps) h = nth_error ps h.
Proof. intros N. unfold nodePoint. rewrite <- find_T. destruct (T_nonnil ps N) as (s & i & a & p & r & c0 & c1 & E). rewrite E. reflexivity. Qed.

Lemma equal_about p q : zVec3DEqual p q = true <-> about zTOL p q.
Proof. unfold zVec3DEqual, about, zIsTiny, zIsTol. rewrite !Bool.andb_true_iff, !Rltb_true. tauto. Qed.
Lemma about_refl p : about zTOL p p.
Proof. pose proof zTOL_pos. unfold about. rewrite !Rminus_diag_eq by reflexivity. rewrite Rabs_R0. tauto. Qed.
Lemma about_sym p q : about zTOL p q -> about zTOL q p.
Proof. unfold about. rewrite (Rabs_minus_sym (vx p)), (Rabs_minus_sym (vy p)), (Rabs_minus_sym (vz p)). tauto. Qed.
Lemma dist_zero p q : dist p q <= 0 -> p = q.
Proof.
  intros H. assert (Z : norm (vsub p q) = 0) by (pose proof (norm_nonneg (vsub p q)); unfold dist in *; lra). apply norm_zero_iff in Z.
  destruct p as [a b c], q as [d e f]. unfold vsub, v3zero in Z. cbn in Z. injection Z as E1 E2 E3. f_equal; lra.
Qed.

Lemma reg_first junk v : (forall j, junk = Some j -> ~ about zTOL v j) -> zSTLVertReg junk (T []) v = (T [v], 0%nat).
Proof.
  intros H. unfold zSTLVertReg, T. cbn [fold_left zVec3DTreeInit]. unfold zVec3DTreeInit. destruct junk as [j|]; [|reflexivity].
  destruct (zVec3DEqual v j) eqn:E; [|reflexivity]. exfalso. apply (H j eq_refl). now apply equal_about.
Qed.
Lemma reg_next junk ps v : ps <> [] -> exists ps' h p, zSTLVertReg junk (T ps) v = (T ps', h) /\ nth_error ps' h = Some p /\ about zTOL v p /\
  ((ps' = ps /\ List.In p ps) \/ (ps' = ps ++ [v] /\ p = v /\ h = length ps /\ ~ List.In v ps)) /\ (List.In v ps -> ps' = ps /\ p = v).
Proof.
  intros N. destruct (tree_nn ps v N) as (n & i & p & E & Ei & Ep & Hn & Hd). fold (T ps) in E.
  assert (Z : zSTLVertReg junk (T ps) v = if zVec3DEqual v p then (T ps, i) else (zVec3DTreeAddPoint (T ps) v, t_size (T ps))).
  { unfold zSTLVertReg. rewrite E, Ei, Ep. destruct (T_nonnil ps N) as (s0 & i0 & a0 & p0 & r0 & c0 & c1 & E0). rewrite E0. reflexivity. }
  rewrite Z. assert (D : List.In v ps -> p = v).
  { intros H. apply dist_zero. specialize (Hd v H). assert (K : dist v v = 0) by (unfold dist; replace (vsub v v) with v3zero by (unfold vsub, v3zero; f_equal; ring); apply norm_zero_iff; reflexivity). lra. }
  destruct (zVec3DEqual v p) eqn:Q.
  - exists ps, i, p. apply equal_about in Q. repeat match goal with |- _ /\ _ => split end; auto. left. split; [reflexivity|]. eapply nth_error_In; eassumption.
  - assert (NI : ~ List.In v ps). { intros H. rewrite (D H) in Q. assert (X : zVec3DEqual v v = true) by (apply equal_about, about_refl). congruence. }
    exists (ps ++ [v]), (length ps), v. rewrite <- T_snoc, T_size. repeat match goal with |- _ /\ _ => split end; auto using about_refl.
    + rewrite nth_error_app2, Nat.sub_diag by lia. reflexivity.
    + contradiction.
Qed.

(** ** facets *)
Definition ok_junk (junk : option vec3) (v : vec3) : Prop := forall j, junk = Some j -> ~ about zTOL v j.
(** registration of one corner, from the start or later *)
Definition step (ps : list vec3) (v : vec3) (ps' : list vec3) (h : nat) (p : vec3) : Prop :=
  nth_error ps' h = Some p /\ about zTOL v p /\ ((ps' = ps /\ List.In p ps) \/ (ps' = ps ++ [v] /\ p = v /\ h = length ps /\ ~ List.In v ps)) /\ (List.In v ps -> ps' = ps /\ p = v).
Lemma reg_any junk ps v : (ps = [] -> ok_junk junk v) -> exists ps' h p, zSTLVertReg junk (T ps) v = (T ps', h) /\ step ps v ps' h p /\ ps' <> [].
Proof.
  intros H. destruct ps as [|p0 ps].
  - exists [v], 0%nat, v. rewrite reg_first by (apply H; reflexivity). split; [reflexivity|]. split; [|discriminate]. unfold step. repeat match goal with |- _ /\ _ => split end; auto using about_refl; try (intros []). right. cbn. auto.
  - destruct (reg_next junk (p0 :: ps) v) as (ps' & h & p & E & A & B & C & D); [discriminate|]. exists ps', h, p. split; [exact E|]. split; [unfold step; auto|]. destruct C as [[-> _]|[-> _]]; discriminate.
Qed.
Definition ext (ps ps' : list vec3) : Prop := exists l, ps' = ps ++ l.
Lemma ext_refl ps : ext ps ps. Proof. exists []. now rewrite app_nil_r. Qed.
Lemma ext_trans a b c : ext a b -> ext b c -> ext a c.
Proof. intros [l ->] [m ->]. exists (l ++ m). now rewrite app_assoc. Qed.
Lemma step_ext ps v ps' h p : step ps v ps' h p -> ext ps ps'.
Proof. intros (_ & _ & [[-> _]|[-> _]] & _); [apply ext_refl|eexists; reflexivity]. Qed.
Lemma ext_nth ps ps' i p : ext ps ps' -> nth_error ps i = Some p -> nth_error ps' i = Some p.
Proof. intros [l ->] H. rewrite nth_error_app1; [exact H|]. apply nth_error_Some. congruence. Qed.

Lemma normal_created a b c : normal_of (a, b, c) (tnorm (snd (zTri3DCreate a b c))).
Proof.
  unfold normal_of. cbv zeta. destruct (tri_creation a b c) as [A B]. cbv zeta in A, B. split.
  - intros N. specialize (A N). unfold zTri3DCreate in *. cbv zeta in *. destruct (zVec3DIsTiny _); [|discriminate]. cbn [snd tnorm]. unfold triOuterProd, tri_normal. zvg. spec_unfold. destruct a, b, c; cbn; f_equal; ring.
  - intros N. destruct (B N) as (t & E & _ & _ & _ & H1 & H2 & _). rewrite E. cbn [snd]. auto.
Qed.

Definition fkey (f : facet) : (nat * nat * nat) * vec3 := ((ft1 f, ft2 f, ft3 f), ft_norm f).
Lemma facet_reg junk ps fl v0 v1 v2 : (ps = [] -> ok_junk junk v0) ->
  exists ps1 ps2 ps3 h1 h2 h3 p1 p2 p3 f, zSTLFacetListReg junk fl (T ps) (v0, v1, v2) = Some (fl ++ [f], T ps3) /\
    step ps v0 ps1 h1 p1 /\ step ps1 v1 ps2 h2 p2 /\ step ps2 v2 ps3 h3 p3 /\ ps3 <> [] /\
    fkey f = ((h1, h2, h3), ft_norm f) /\ normal_of (p1, p2, p3) (ft_norm f).
Proof.
  intros H. destruct (reg_any junk ps v0 H) as (ps1 & h1 & p1 & E1 & S1 & N1).
  destruct (reg_any junk ps1 v1) as (ps2 & h2 & p2 & E2 & S2 & N2); [congruence|].
  destruct (reg_any junk ps2 v2) as (ps3 & h3 & p3 & E3 & S3 & N3); [congruence|].
  exists ps1, ps2, ps3, h1, h2, h3, p1, p2, p3. eexists. unfold zSTLFacetListReg. rewrite E1, E2, E3. rewrite !nodePoint_T by assumption.
  assert (X1 : nth_error ps3 h1 = Some p1) by (eapply ext_nth; [apply (ext_trans _ ps2); [eapply step_ext; exact S2|eapply step_ext; exact S3]|apply S1]).
  assert (X2 : nth_error ps3 h2 = Some p2) by (eapply ext_nth; [eapply step_ext; eassumption|apply S2]).
  assert (X3 : nth_error ps3 h3 = Some p3) by apply S3.
  rewrite X1, X2, X3. split; [reflexivity|]. repeat (split; [assumption|]). split; [reflexivity|]. cbn [ft_norm]. apply normal_created.
Qed.

(** one triangle after the other *)
Fixpoint regs (junk : option vec3) (fl : list facet) (t : tree) (ts : list tri) : option (list facet * tree) :=
  match ts with
  | [] => Some (fl, t)
  | v :: ts => match zSTLFacetListReg junk fl t v with Some (fl, t) => regs junk fl t ts | None => None end
  end.
Lemma fo_step qs ps v ps' h p : (forall x, List.In x ps -> List.In x qs) -> well_apart zTOL (qs ++ [v]) -> first_occurrences qs ps -> step ps v ps' h p -> first_occurrences (qs ++ [v]) ps' /\ p = v.
Proof.
  intros I W F (A & B & C & D). assert (K : List.In p ps -> p = v).
  { intros H. apply W; [apply in_or_app; left; auto|apply in_or_app; right; now left|now apply about_sym]. }
  destruct C as [[-> Hp]|(-> & -> & _ & NI)].
  - pose proof (K Hp). subst p. split; [|reflexivity]. apply FO_old; assumption.
  - split; [|reflexivity]. apply FO_new; assumption.
Qed.
Lemma step_nodup ps v ps' h p : step ps v ps' h p -> NoDup ps -> NoDup ps'.
Proof.
  intros (_ & _ & [[-> _]|(-> & _ & _ & N)] & _) H; [assumption|]. apply NoDup_rev in H. rewrite <- (rev_involutive (ps ++ [v])). apply NoDup_rev. rewrite rev_app_distr. cbn. constructor; [now rewrite <- in_rev|assumption].
Qed.
Lemma step_in ps v ps' h p x : step ps v ps' h p -> List.In x ps' -> List.In x ps \/ x = v.
Proof. intros (_ & _ & [[-> _]|(-> & _)] & _) H; [now left|]. apply in_app_or in H. destruct H as [H|[H|[]]]; auto. Qed.
Lemma step_len ps v ps' h p i : step ps v ps' h p -> (i < length ps')%nat -> (i < length ps)%nat \/ i = h.
Proof. intros (_ & _ & [[-> _]|(-> & _ & -> & _)] & _) H; [now left|]. rewrite app_length in H. cbn in H. lia. Qed.

Lemma well_apart_sub tol a b : (forall x, List.In x a -> List.In x b) -> well_apart tol b -> well_apart tol a.
Proof. intros I W p q Hp Hq. apply W; auto. Qed.
Lemma triangle_ext vs vs' f t : ext vs vs' -> triangle_of vs f t -> triangle_of vs' f t.
Proof. destruct f as [[i j] k], t as [[a b] c]. intros E (A & B & C). cbn. repeat split; eapply ext_nth; eassumption. Qed.
Lemma Forall2_snoc {A B} (P : A -> B -> Prop) la lb a b : Forall2 P la lb -> P a b -> Forall2 P (la ++ [a]) (lb ++ [b]).
Proof. induction 1; cbn; auto. Qed.
Lemma Forall2_mono {A B} (P Q : A -> B -> Prop) la lb : (forall a b, P a b -> Q a b) -> Forall2 P la lb -> Forall2 Q la lb.
Proof. intros H. induction 1; auto. Qed.
Lemma corners_snoc ts t : all_corners (ts ++ [t]) = all_corners ts ++ tri_corners t.
Proof. unfold all_corners. rewrite flat_map_app. cbn [flat_map]. now rewrite app_nil_r. Qed.
Lemma welded_step ts vs fs v0 v1 v2 ps1 ps2 ps3 h1 h2 h3 p1 p2 p3 f :
  welded zTOL ts vs (map fkey fs) -> step vs v0 ps1 h1 p1 -> step ps1 v1 ps2 h2 p2 -> step ps2 v2 ps3 h3 p3 ->
  fkey f = ((h1, h2, h3), ft_norm f) -> normal_of (p1, p2, p3) (ft_norm f) -> welded zTOL (ts ++ [(v0, v1, v2)]) ps3 (map fkey (fs ++ [f])).
Proof.
  intros (A & B & C & D & E) S1 S2 S3 K N. rewrite map_app. cbn [map]. rewrite K.
  assert (X1 : nth_error ps3 h1 = Some p1) by (eapply ext_nth; [apply (ext_trans _ ps2); [eapply step_ext; exact S2|eapply step_ext; exact S3]|apply S1]).
  assert (X2 : nth_error ps3 h2 = Some p2) by (eapply ext_nth; [eapply step_ext; eassumption|apply S2]).
  assert (X3 : nth_error ps3 h3 = Some p3) by apply S3.
  assert (EX : ext vs ps3) by (apply (ext_trans _ ps2); [apply (ext_trans _ ps1)|]; eapply step_ext; eassumption).
  unfold welded. rewrite corners_snoc. cbn [tri_corners]. repeat match goal with |- _ /\ _ => split end.
  - apply Forall2_snoc.
    + eapply Forall2_mono; [|exact A]. intros t g (u & U1 & U2 & U3). exists u. split; [eapply triangle_ext; eassumption|]. auto.
    + exists (p1, p2, p3). cbn [fst snd triangle_of about3]. destruct S1 as (_ & Y1 & _), S2 as (_ & Y2 & _), S3 as (_ & Y3 & _). auto.
  - eauto using step_nodup.
  - intros v Hv. apply in_or_app. cbn. destruct (step_in _ _ _ _ _ _ S3 Hv) as [Hv2|]; [|auto]. destruct (step_in _ _ _ _ _ _ S2 Hv2) as [Hv1|]; [|auto]. destruct (step_in _ _ _ _ _ _ S1 Hv1) as [Hv0|]; [|auto]. left. auto.
  - assert (G : forall i, i = h1 \/ i = h2 \/ i = h3 -> exists f0 a b c, List.In f0 (map fkey fs ++ [((h1, h2, h3), ft_norm f)]) /\ fst f0 = (a, b, c) /\ (i = a \/ i = b \/ i = c)).
    { intros i H. exists ((h1, h2, h3), ft_norm f), h1, h2, h3. split; [apply in_or_app; right; now left|]. split; [reflexivity|exact H]. }
    intros i Hi. destruct (step_len _ _ _ _ _ _ S3 Hi) as [Hi2|]; [|apply G; tauto]. destruct (step_len _ _ _ _ _ _ S2 Hi2) as [Hi1|]; [|apply G; tauto]. destruct (step_len _ _ _ _ _ _ S1 Hi1) as [Hi0|]; [|apply G; tauto].
    destruct (D i Hi0) as (g & a & b & c & G1 & G2 & G3). exists g, a, b, c. split; [apply in_or_app; now left|]. auto.
  - intros W. destruct E as [E1 E2]; [eapply well_apart_sub; [|exact W]; intros x Hx; apply in_or_app; now left|].
    destruct (fo_step (all_corners ts) vs v0 ps1 h1 p1 C) as [F1 Q1]; [eapply well_apart_sub; [|exact W]; intros x Hx; rewrite !in_app_iff in *; cbn in *; tauto|assumption|assumption|].
    assert (C1 : forall x, List.In x ps1 -> List.In x (all_corners ts ++ [v0])) by (intros x Hx; apply in_or_app; cbn; destruct (step_in _ _ _ _ _ _ S1 Hx); auto).
    destruct (fo_step _ ps1 v1 ps2 h2 p2 C1) as [F2 Q2]; [eapply well_apart_sub; [|exact W]; intros x Hx; rewrite !in_app_iff in *; cbn in *; tauto|assumption|assumption|].
    assert (C2 : forall x, List.In x ps2 -> List.In x ((all_corners ts ++ [v0]) ++ [v1])) by (intros x Hx; apply in_or_app; cbn; destruct (step_in _ _ _ _ _ _ S2 Hx); auto).
    destruct (fo_step _ ps2 v2 ps3 h3 p3 C2) as [F3 Q3]; [eapply well_apart_sub; [|exact W]; intros x Hx; rewrite !in_app_iff in *; cbn in *; tauto|assumption|assumption|].
    split.
    + rewrite <- !app_assoc in F3. exact F3.
    + apply Forall2_snoc; [eapply Forall2_mono; [|exact E2]; intros t g; apply triangle_ext; assumption|]. cbn [fst triangle_of]. rewrite X1, X2, X3, Q1, Q2, Q3. auto.
Qed.
Lemma regs_welded junk : forall ts done fl ps, welded zTOL done ps (map fkey fl) -> (ps = [] -> done = [] /\ match ts with (v0, _, _) :: _ => ok_junk junk v0 | [] => True end) ->
  exists fl' ps', regs junk fl (T ps) ts = Some (fl', T ps') /\ welded zTOL (done ++ ts) ps' (map fkey fl') /\ (ts <> [] -> ps' <> []).
Proof.
  induction ts as [|[[v0 v1] v2] ts IH]; intros done fl ps W J.
  - exists fl, ps. rewrite app_nil_r. split; [reflexivity|]. split; [exact W|]. congruence.
  - destruct (facet_reg junk ps fl v0 v1 v2) as (ps1 & ps2 & ps3 & h1 & h2 & h3 & p1 & p2 & p3 & f & E & S1 & S2 & S3 & N & K & NF); [intros Z; apply J in Z; apply Z|].
    cbn [regs]. rewrite E. destruct (IH (done ++ [(v0, v1, v2)]) (fl ++ [f]) ps3) as (fl' & ps' & E' & W' & N'); [eapply welded_step; eassumption|congruence|].
    exists fl', ps'. rewrite <- app_assoc in W'. split; [exact E'|]. split; [exact W'|]. intros _. destruct ts; [|apply N'; discriminate]. cbn [regs] in E'. assert (length ps' = length ps3) by (rewrite <- !T_size; congruence). destruct ps'; [destruct ps3; [congruence|discriminate]|discriminate].
Qed.
Lemma welded_nil : welded zTOL [] [] [].
Proof.
  unfold welded. repeat match goal with |- _ /\ _ => split end; auto using NoDup_nil.
  - intros i H. cbn in H. lia.
  - intros _. split; constructor.
Qed.
Lemma to_ph ps fl : ps <> [] -> zSTLToPH3D (T ps) fl = Some (PH ps (zSTLFacetListToTri3DArray fl)).
Proof. intros N. unfold zSTLToPH3D. destruct (tree_export ps N) as (_ & E & _). unfold T. rewrite E. reflexivity. Qed.
Lemma keys fl : map face_key (zSTLFacetListToTri3DArray fl) = map fkey fl.
Proof. unfold zSTLFacetListToTri3DArray. rewrite map_map. reflexivity. Qed.
Lemma regs_all junk ts : ts <> [] -> (forall v j, first_corner ts v -> junk = Some j -> ~ about zTOL v j) ->
  exists fl t ph, regs junk [] zVec3DTreeInit ts = Some (fl, t) /\ zSTLToPH3D t fl = Some ph /\ welded zTOL ts (pverts ph) (map face_key (pfaces ph)).
Proof.
  intros N H. destruct (regs_welded junk ts [] [] []) as (fl & ps & E & W & N'); [apply welded_nil| |].
  - intros _. split; [reflexivity|]. destruct ts as [|[[v0 v1] v2] ts]; [exact I|]. intros j Hj. eapply H; [|exact Hj]. unfold first_corner. eauto.
  - exists fl, (T ps), (PH ps (zSTLFacetListToTri3DArray fl)). split; [exact E|]. split; [apply to_ph; auto|]. cbn [pverts pfaces]. rewrite keys. exact W.
Qed.

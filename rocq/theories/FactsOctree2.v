(** Proofs about searches in the octree and histories of operations. *)
From Verif Require Import Base Spec SpecGeom SpecBox SpecData SpecOctree ModelVec ModelBox ModelData ModelOctree FactsVec FactsAlg FactsBox FactsData FactsData2 FactsTree FactsOctree.
From Coq Require Import Lia Lra Permutation FunctionalExtensionality.
Open Scope R_scope.

(** ** histories *)
Definition tok (e : R) (reg : aabox3) (t : octree) : Prop := owf e (o_res t) true reg (o_root t) /\ sub_null (o_root t) = false /\ 0 <= o_res t.
Lemma tok_region e reg t : tok e reg t -> exists c pts sub, o_root t = Oct reg c pts sub /\ proper reg.
Proof. intros (W & N & _). destruct (o_root t) as [|r c pts sub]; [discriminate|]. destruct W as (-> & _ & P & _). exists c, pts, sub. auto. Qed.
Lemma inside_slack reg p : zVec3DOctantPointIsInside reg p = true -> slack zTOL reg p.
Proof. unfold zVec3DOctantPointIsInside. rewrite aab_inside. unfold slack. lra. Qed.
(** points accepted *)
Definition accepted (reg : aabox3) (h : list oop) : list vec3 := filter (zVec3DOctantPointIsInside reg) (inserted h).
Lemma op_ok e reg o t : 0 <= e -> (forall p, o = OInsert p -> zVec3DOctantPointIsInside reg p = true -> slack e reg p) -> (forall r, o = OResolution r -> 0 <= r) -> tok e reg t ->
  exists n, forall fuel, (n <= fuel)%nat -> exists t', run_oop fuel t o = Some t' /\ tok e reg t' /\ Permutation (opts (o_root t')) (accepted reg [o] ++ opts (o_root t)).
Proof.
  intros E HI HR T. pose proof zTOL_pos as ZP. destruct (tok_region e reg t T) as (c & pts & sub & ER & P). destruct o as [p|r].
  - unfold run_oop, zVec3DOctreeAddPoint, accepted. rewrite ER. cbn [inserted filter]. destruct (zVec3DOctantPointIsInside reg p) eqn:IN; cbn [negb app].
    + destruct T as (W & N & R0). destruct (fits_exists (o_res t) reg ltac:(lra)) as (n & F). exists (S n). intros fuel L. rewrite ER in *.
      destruct (oct_add e (o_res t) n fuel _ reg p ltac:(lia) E N W (F n (le_n n)) (HI p eq_refl IN)) as (o' & A1 & A2 & A3 & A4). rewrite A1. exists (OT (o_res t) o'). split; [reflexivity|]. unfold tok. cbn [o_root o_res]. auto.
    + exists 0%nat. intros fuel _. exists t. rewrite ER. auto.
  - cbn [run_oop]. unfold zVec3DOctreeChangeResolution, accepted. cbn [inserted filter app]. specialize (HR r eq_refl). destruct T as (W & N & R0). destruct (Rltb_reflect r (o_res t)) as [LT|GE].
    + destruct (fits_exists r reg ltac:(lra)) as (n & F). exists (S n). intros fuel L.
      destruct (oct_divide e r n fuel (o_root t) reg ltac:(lia) E (owf_pre e (o_res t) r reg (o_root t) ltac:(lra) W) (F n (le_n n))) as (o' & A1 & A2 & A3 & A4). rewrite A1. exists (OT r o'). split; [reflexivity|]. unfold tok. cbn [o_root o_res]. rewrite A4. auto.
    + exists 0%nat. intros fuel _. destruct (oct_merge e (o_res t) r (o_root t) ltac:(lra) ltac:(lra) reg W) as (A2 & A3 & A4). eexists. split; [reflexivity|]. unfold tok. cbn [o_root o_res]. rewrite A4. auto.
Qed.
Lemma history_ok e reg h : 0 <= e -> (forall p, List.In p (inserted h) -> zVec3DOctantPointIsInside reg p = true -> slack e reg p) -> sane h -> forall t, tok e reg t ->
  exists n, forall fuel, (n <= fuel)%nat -> exists t', run_oops fuel t h = Some t' /\ tok e reg t' /\ Permutation (opts (o_root t')) (accepted reg h ++ opts (o_root t)).
Proof.
  intros E. induction h as [|o h IH] using rev_ind; intros HI SN t T.
  - exists 0%nat. intros fuel _. exists t. cbn. auto.
  - destruct (IH) with (t := t) as (n1 & H1); auto.
    { intros p Hp. apply HI. clear -Hp. induction h as [|[q|r] h IH]; cbn [app inserted] in *; [destruct Hp| |apply IH; exact Hp]. destruct Hp as [->|Hp]; [left; reflexivity|right; apply IH; exact Hp]. }
    { intros r Hr. apply SN. apply in_or_app. left. exact Hr. }
    assert (INS : inserted (h ++ [o]) = inserted h ++ inserted [o]).
    { clear. induction h as [|[q|r] h IH]; cbn [app inserted] in *; auto. rewrite IH. reflexivity. }
    destruct (H1 n1 (le_n _)) as (t1 & R1 & T1 & P1).
    (* the result does not depend on the depth limit: use a uniform one *)
    assert (DET : forall fuel fuel' t t1 t2 h, run_oops fuel t h = Some t1 -> run_oops fuel' t h = Some t2 -> t1 = t2).
    { clear. assert (ADD : forall f f' o p r a b, zVec3DOctantAddPoint f o p r = Some a -> zVec3DOctantAddPoint f' o p r = Some b -> a = b).
      { induction f as [|f IH]; intros [|f'] o p r a b A B; destruct o as [|rg c pts sub]; cbn [zVec3DOctantAddPoint] in *; try discriminate. destruct (zVec3DOctantIsSmallest rg r); [congruence|].
        destruct (zVec3DOctantAddPoint f _ p r) eqn:A1; [|discriminate]. destruct (zVec3DOctantAddPoint f' _ p r) eqn:B1; [|discriminate]. rewrite (IH _ _ _ _ _ _ A1 B1) in A. congruence. }
      assert (DIV : forall f f' o r a b, zVec3DOctantDivide f o r = Some a -> zVec3DOctantDivide f' o r = Some b -> a = b).
      { induction f as [|f IH]; intros [|f'] o r a b A B; destruct o as [|rg c pts sub]; cbn [zVec3DOctantDivide] in *; try discriminate; try congruence. destruct (zVec3DOctantIsSmallest rg r); [congruence|].
        set (s := fold_left (divide_step rg c) (rev pts) sub) in *. clearbody s. unfold all_sub in *.
        destruct (forallb (fun i => match zVec3DOctantDivide f (s i) r with Some _ => true | None => false end) octs) eqn:FA; [|discriminate].
        destruct (forallb (fun i => match zVec3DOctantDivide f' (s i) r with Some _ => true | None => false end) octs) eqn:FB; [|discriminate].
        inversion A. inversion B. f_equal. apply functional_extensionality. intros i. rewrite forallb_forall in FA, FB. specialize (FA i (octs_all i)). specialize (FB i (octs_all i)). destruct (zVec3DOctantDivide f (s i) r) eqn:A1; [|discriminate]. destruct (zVec3DOctantDivide f' (s i) r) eqn:B1; [|discriminate]. eapply IH; eauto. }
      intros f f' t t1 t2 h. revert t. induction h as [|o h IH]; intros t A B; cbn [run_oops] in *; [congruence|].
      destruct (run_oop f t o) as [a|] eqn:A1; [|discriminate]. destruct (run_oop f' t o) as [b|] eqn:B1; [|discriminate]. assert (a = b); [|subst b; eapply IH; eauto].
      destruct o as [p|r]; cbn [run_oop] in *.
      - unfold zVec3DOctreeAddPoint in *. destruct (o_root t) eqn:ER; [discriminate|]. destruct (negb _); [congruence|]. rewrite <- ER in *. destruct (zVec3DOctantAddPoint f _ p _) eqn:A2; [|discriminate]. destruct (zVec3DOctantAddPoint f' _ p _) eqn:B2; [|discriminate]. rewrite (ADD _ _ _ _ _ _ _ A2 B2) in A1. congruence.
      - unfold zVec3DOctreeChangeResolution in *. destruct (Rltb r (o_res t)); [|congruence]. destruct (zVec3DOctantDivide f _ r) eqn:A2; [|discriminate]. destruct (zVec3DOctantDivide f' _ r) eqn:B2; [|discriminate]. rewrite (DIV _ _ _ _ _ _ A2 B2) in A1. congruence. }
    destruct (op_ok e reg o t1 E) as (n2 & H2); auto.
    { intros p ->. apply HI. rewrite INS. apply in_or_app. right. left. reflexivity. }
    { intros r ->. apply SN. apply in_or_app. right. left. reflexivity. }
    exists (n1 + n2)%nat. intros fuel L. destruct (H1 fuel ltac:(lia)) as (t1' & R1' & _ & _). assert (t1' = t1) by (eapply DET; eauto). subst t1'.
    destruct (H2 fuel ltac:(lia)) as (t2 & R2 & T2 & P2). exists t2. split; [|split; [exact T2|]].
    + assert (RA : forall h2 h1 t, run_oops fuel t (h1 ++ h2) = match run_oops fuel t h1 with Some t' => run_oops fuel t' h2 | None => None end).
      { clear. induction h1 as [|x h1 IH]; intros t; [reflexivity|]. cbn [app run_oops]. destruct (run_oop fuel t x); auto. }
      rewrite RA, R1'. cbn [run_oops]. rewrite R2. reflexivity.
    + rewrite P2, P1. unfold accepted. rewrite INS, filter_app. rewrite !app_assoc. apply Permutation_app_tail, Permutation_app_comm.
Qed.
(** ** an octant with points has no suboctants *)
Fixpoint lwf (e : R) (reg : aabox3) (o : octant) : Prop :=
  match o with
  | ONull => True
  | Oct r c pts sub => r = reg /\ proper reg /\ Forall (slack e reg) pts /\ (pts <> [] -> forall i, sub i = ONull) /\ (forall i, lwf e (subreg reg i) (sub i))
  end.
Lemma owf_lwf e res o : forall reg, owf e res true reg o -> lwf e reg o.
Proof.
  induction o as [|r c pts sub IH]; intros reg W; [exact I|]. destruct W as (-> & _ & P & F & L & IN & SUB). cbn [lwf]. repeat match goal with |- _ /\ _ => split end; auto.
  intros NE. apply L. destruct (zVec3DOctantIsSmallest reg res); [reflexivity|]. elim NE. apply IN; reflexivity.
Qed.
Lemma lwf_in e o : forall reg p, lwf e reg o -> List.In p (opts o) -> slack e reg p.
Proof.
  induction o as [|r c pts sub IH]; intros reg p W H; [destruct H|]. destruct W as (-> & P & F & _ & SUB). cbn [opts] in H. apply in_app_or in H. destruct H as [H|H].
  - apply (proj1 (Forall_forall _ _) F _ H).
  - apply in_flat_map in H. destruct H as (i & _ & H). eapply subreg_slack; [exact P|]. eapply IH; [apply SUB|exact H].
Qed.
Lemma lwf_leaf e reg r c v pts sub : lwf e reg (Oct r c (v :: pts) sub) -> opts (Oct r c (v :: pts) sub) = v :: pts.
Proof. intros (_ & _ & _ & L & _). cbn [opts]. rewrite flat_none; [apply app_nil_r|]. intros i _. rewrite L by discriminate. reflexivity. Qed.
(** ** nearest neighbour *)
Lemma region_near e reg q y : 0 <= e -> proper reg -> slack e reg y -> sqrt (zAABox3DSqrDistFromPoint reg q) <= dist y q + 2 * e.
Proof.
  intros E P (Y1 & Y2 & Y3). destruct (aab_closest reg q P) as ((C1 & C2) & C3 & C4 & _). fold (zAABox3DDistFromPoint reg q). rewrite C4, C3.
  set (cl := fun v lo hi : R => Rmin (Rmax v lo) hi). set (z := V3 (cl (vx y) (vx (bmin reg)) (vx (bmax reg))) (cl (vy y) (vy (bmin reg)) (vy (bmax reg))) (cl (vz y) (vz (bmin reg)) (vz (bmax reg)))).
  assert (CL : forall v lo hi, lo <= hi -> lo - e <= v <= hi + e -> lo <= cl v lo hi <= hi /\ - e <= v - cl v lo hi <= e).
  { intros v lo hi H1 H2. unfold cl, Rmin, Rmax. destruct (Rle_dec v lo); destruct (Rle_dec _ hi); lra. }
  destruct P as (P1 & P2 & P3). destruct (CL _ _ _ P1 Y1) as [A1 A2], (CL _ _ _ P2 Y2) as [B1 B2], (CL _ _ _ P3 Y3) as [D1 D2].
  assert (Z : in_box reg z) by (unfold in_box, z; cbn [vx vy vz]; tauto). specialize (C2 z Z). pose proof (dist_triangle q y z) as T.
  assert (L : dist y z <= 2 * e).
  { apply rsqr_le; [apply dist_nonneg|lra|]. rewrite <- sqd3. rewrite sqd3. unfold Rsqr, dist. rewrite norm_sqr. unfold dot, vsub, z. cbn [vx vy vz]. set (a := vx y - _) in *. set (b := vy y - _) in *. set (d := vz y - _) in *.
    assert (SQ : forall x, - e <= x <= e -> x * x <= e * e) by (intros x Hx; nra). pose proof (SQ a A2). pose proof (SQ b B2). pose proof (SQ d D2). nra. }
  rewrite (dist_sym q y) in T. lra.
Qed.
Section nn.
Variables (e : R) (q : vec3).
Hypothesis E : 0 <= e.
Definition obest (P : vec3 -> Prop) (s : option vec3 * option R) : Prop :=
  match s with
  | (None, None) => forall x, ~ P x
  | (Some v, Some d) => P v /\ d = dist v q /\ forall y, P y -> d <= dist y q + 2 * e
  | _ => False
  end.
Lemma obest_ext P Q s : (forall x, P x <-> Q x) -> obest P s -> obest Q s.
Proof.
  intros X. destruct s as [[v|] [d|]]; cbn [obest]; auto.
  - intros (A & B & C). split; [apply X; exact A|split; [exact B|]]. intros y Hy. apply C, X, Hy.
  - intros H x Hx. apply (H x), X, Hx.
Qed.
Lemma obest_nonneg P v d : obest P (v, Some d) -> 0 <= d.
Proof. destruct v; [|intros []]. intros (_ & -> & _). apply dist_nonneg. Qed.
Lemma obest_step P s v : obest P s -> obest (fun x => P x \/ x = v) (leaf_nn_step q s v).
Proof.
  intros B. unfold leaf_nn_step. assert (SQ : sqrt (zVec3DSqrDist v q) = dist v q) by (rewrite sqd3; apply sqrt_Rsqr, dist_nonneg). destruct s as [u [d|]]; cbn [snd].
  - assert (SD : Rltb (zVec3DSqrDist v q) (zSqr d) = Rltb (dist v q) d) by (rewrite sqd3; apply rltb_sqr; [apply dist_nonneg|eapply obest_nonneg; exact B]). rewrite SD.
    destruct u as [u|]; [|destruct B]. destruct B as (B1 & B2 & B3). destruct (Rltb_reflect (dist v q) d) as [H|H]; cbn [obest].
    + rewrite SQ. split; [auto|split; [reflexivity|]]. intros y [Hy | ->]; [specialize (B3 y Hy); lra|lra].
    + split; [auto|split; [exact B2|]]. intros y [Hy | ->]; [auto|lra].
  - destruct u as [u|]; [destruct B|]. cbn [obest] in *. rewrite SQ. split; [auto|split; [reflexivity|]]. intros y [Hy | ->]; [destruct (B y Hy)|lra].
Qed.
Lemma obest_leaf pts : forall P s, obest P s -> obest (fun x => P x \/ List.In x pts) (zVec3DOctantLeafNN pts q s).
Proof.
  unfold zVec3DOctantLeafNN. induction pts as [|v pts IH]; intros P s B; cbn [fold_left]; [eapply obest_ext; [|exact B]; intros; cbn; tauto|].
  eapply obest_ext; [|apply IH, obest_step, B]. intros x. cbn [List.In]. intuition.
Qed.
Lemma obest_skip P s reg o : obest P s -> lwf e reg o -> sub_null o = false -> (match snd s with None => false | Some dmin => Rltb (zSqr dmin) (zAABox3DSqrDistFromPoint (o_region o) q) end) = true -> obest (fun x => P x \/ List.In x (opts o)) s.
Proof.
  intros B W N K. destruct s as [v [d|]]; cbn [snd] in K; [|discriminate]. pose proof (obest_nonneg _ _ _ B) as D0. destruct v as [v|]; [|destruct B]. destruct B as (B1 & B2 & B3). cbn [obest]. split; [auto|split; [exact B2|]].
  intros y [Hy|Hy]; [auto|]. apply Rltb_true in K. pose proof (lwf_in e o reg y W Hy) as SL. assert (PR : proper reg /\ o_region o = reg) by (destruct o; [discriminate|]; destruct W as (-> & P0 & _); auto). destruct PR as [PR PE]. rewrite PE in K.
  pose proof (region_near e reg q y E PR SL) as L. assert (K2 : sqrt (zSqr d) < sqrt (zAABox3DSqrDistFromPoint reg q)) by (apply sqrt_lt_1_alt; split; [unfold zSqr; nra|exact K]). clear K. rename K2 into K. unfold zSqr in K. rewrite sqrt_square in K by exact D0. lra.
Qed.
Lemma oct_nn o : forall P s reg, obest P s -> lwf e reg o -> obest (fun x => P x \/ List.In x (opts o)) (zVec3DOctantNN o q s).
Proof.
  induction o as [|r c pts sub IH]; intros P s reg B W; [cbn; eapply obest_ext; [|exact B]; intros; cbn; tauto|].
  cbn [zVec3DOctantNN]. destruct pts as [|v pts].
  - destruct W as (-> & PR & _ & _ & SUB). cbn [opts app].
    assert (G : forall l P s, obest P s -> obest (fun x => P x \/ List.In x (flat_map (fun i => opts (sub i)) l))
      (fold_left (fun s i => if sub_null (sub i) then s else if match snd s with None => false | Some dmin => Rltb (zSqr dmin) (zAABox3DSqrDistFromPoint (o_region (sub i)) q) end then s else zVec3DOctantNN (sub i) q s) l s)).
    { induction l as [|i l IHl]; intros P0 s0 B0; cbn [fold_left]; [eapply obest_ext; [|exact B0]; intros; cbn; tauto|].
      eapply obest_ext; [|apply IHl with (P := fun x => P0 x \/ List.In x (opts (sub i)))].
      - intros x. cbn [flat_map]. rewrite in_app_iff. tauto.
      - destruct (sub_null (sub i)) eqn:N; [destruct (sub i); [eapply obest_ext; [|exact B0]; intros; cbn; tauto|discriminate]|].
        match goal with |- context [if ?b then _ else _] => destruct b eqn:K end; [eapply obest_skip; eauto|eapply IH; eauto]. }
    apply G. exact B.
  - rewrite (lwf_leaf e reg _ _ _ _ _ W). apply obest_leaf. exact B.
Qed.
End nn.
Lemma container_points o q c : zVec3DOctantFindContainer o q = Some c -> forall x, List.In x (o_points c) -> List.In x (opts o).
Proof.
  revert c. induction o as [|r ce pts sub IH]; intros c H x Hx; [discriminate|]. cbn [zVec3DOctantFindContainer] in H. destruct (negb _); [discriminate|].
  assert (G : forall l acc, (forall s, acc = Some s -> List.In x (o_points s) -> List.In x (flat_map (fun i => opts (sub i)) octs)) -> (forall i, List.In i l -> List.In i octs) -> forall s,
    fold_left (fun found i => match found with Some _ => found | None => zVec3DOctantFindContainer (sub i) q end) l acc = Some s -> List.In x (o_points s) -> List.In x (flat_map (fun i => opts (sub i)) octs)).
  { induction l as [|i l IHl]; intros acc A L s F Hs; cbn [fold_left] in F; [eapply A; eauto|]. eapply IHl; [| |exact F|exact Hs]; [|intros j Hj; apply L; right; exact Hj].
    intros s' Es Hs'. destruct acc as [a|]; [eapply A; [reflexivity|]; congruence|]. apply in_flat_map. exists i. split; [apply octs_all|]. eapply IH; eauto. }
  cbn [opts]. apply in_or_app. destruct (fold_left _ octs None) as [s|] eqn:F.
  - right. inversion H. subst s. eapply G; [| |exact F|exact Hx]; [intros; discriminate|auto].
  - left. inversion H. subst c. exact Hx.
Qed.
Lemma octree_nn e reg t q : 0 <= e -> lwf e reg (o_root t) -> obest e q (fun x => List.In x (opts (o_root t))) (zVec3DOctreeNN t q).
Proof.
  intros E W. unfold zVec3DOctreeNN, zVec3DOctreeFindContainer. 
  assert (B0 : obest e q (fun _ => False) (None, None)) by (cbn; tauto).
  destruct (zVec3DOctantFindContainer (o_root t) q) as [c|] eqn:F.
  - pose proof (obest_leaf e q E (o_points c) _ _ B0) as B1. pose proof (oct_nn e q E (o_root t) _ _ reg B1 W) as B2. eapply obest_ext; [|exact B2]. intros x. cbv beta. pose proof (container_points _ _ _ F x). tauto.
  - pose proof (oct_nn e q E (o_root t) _ _ reg B0 W) as B2. eapply obest_ext; [|exact B2]. intros x. cbv beta. tauto.
Qed.
(** ** vicinity *)
Definition nearf (q : vec3) (r2 : R) (l : list vec3) : list vec3 := filter (fun x => Rltb (zVec3DSqrDist x q) r2) l.
Definition ovic (q : vec3) (r2 : R) (f : option (data vec3) -> option (data vec3)) (L : list vec3) : Prop :=
  forall v, wf v -> d_method v = MAddrList -> exists v', f (Some v) = Some v' /\ wf v' /\ d_method v' = MAddrList /\ contents v' = contents v ++ nearf q r2 L.
Lemma vic_pts q r2 pts : ovic q r2 (fold_left (vic_step q r2) pts) pts.
Proof.
  intros v. revert v. induction pts as [|p pts IH]; intros v W M; cbn [fold_left]; [exists v; cbn; rewrite app_nil_r; auto|].
  cbn [vic_step nearf filter]. fold (nearf q r2 pts). destruct (Rltb (zVec3DSqrDist p q) r2) eqn:K; [|apply IH; auto].
  unfold zVecXDDataAdd. rewrite M.
  destruct (IH (DT MAddrList (d_store v ++ [p]) (d_size v) (d_cap v) (d_i v) (d_c v))) as (v' & A & B & C & D).
  - unfold wf in *. rewrite M in W. cbn [d_method listlike d_c d_store] in *. destruct (d_c v); auto. rewrite app_length. lia.
  - reflexivity.
  - exists v'. split; [exact A|]. split; [exact B|split; [exact C|]]. rewrite D. unfold contents. rewrite M. cbn [d_method listlike d_store]. rewrite <- app_assoc. reflexivity.
Qed.
Lemma oct_vic q r2 o : forall reg, lwf 0 reg o -> 0 <= r2 -> ovic q r2 (zVec3DOctantVicinity o q r2) (opts o).
Proof.
  induction o as [|r c pts sub IH]; intros reg W R2 v Wv M; [exists v; cbn; rewrite app_nil_r; auto|].
  cbn [zVec3DOctantVicinity]. pose proof W as W'. destruct W as (-> & PR & _ & LF & SUB). destruct (Rleb_reflect r2 (zAABox3DSqrDistFromPoint reg q)) as [K|K].
  - exists v. split; [reflexivity|split; [exact Wv|split; [exact M|]]].
    assert (Z : nearf q r2 (opts (Oct reg c pts sub)) = []); [|rewrite Z, app_nil_r; reflexivity].
    unfold nearf. assert (H : forall x, List.In x (opts (Oct reg c pts sub)) -> Rltb (zVec3DSqrDist x q) r2 = false).
    { intros x Hx. apply Rltb_false. pose proof (lwf_in 0 _ reg x W' Hx) as SL. pose proof (region_near 0 reg q x ltac:(lra) PR SL) as L. rewrite sqd3.
      assert (Q : 0 <= zAABox3DSqrDistFromPoint reg q) by lra. assert (Q2 : zAABox3DSqrDistFromPoint reg q = Rsqr (sqrt (zAABox3DSqrDistFromPoint reg q))) by (rewrite Rsqr_sqrt; auto).
      assert (Rsqr (sqrt (zAABox3DSqrDistFromPoint reg q)) <= Rsqr (dist x q)) by (apply Rsqr_incr_1; [lra|apply sqrt_pos|apply dist_nonneg]). lra. }
    induction (opts (Oct reg c pts sub)) as [|x l IHl]; [reflexivity|]. cbn [filter]. rewrite H by (left; reflexivity). apply IHl. intros y Hy. apply H. right. exact Hy.
  - destruct pts as [|p pts].
    + cbn [opts app]. 
      assert (G : forall l, ovic q r2 (fold_left (fun s i => match s with None => None | _ => zVec3DOctantVicinity (sub i) q r2 s end) l) (flat_map (fun i => opts (sub i)) l)).
      { induction l as [|i l IHl]; intros u Wu Mu; cbn [fold_left flat_map]; [exists u; cbn; rewrite app_nil_r; auto|].
        destruct (IH i _ (SUB i) R2 u Wu Mu) as (u1 & A1 & A2 & A3 & A4). rewrite A1. destruct (IHl u1 A2 A3) as (u2 & B1 & B2 & B3 & B4). exists u2. split; [exact B1|split; [exact B2|split; [exact B3|]]].
        rewrite B4, A4. unfold nearf. rewrite filter_app, <- app_assoc. reflexivity. }
      apply G; auto.
    + rewrite (lwf_leaf 0 reg _ _ _ _ _ W'). apply vic_pts; auto.
Qed.

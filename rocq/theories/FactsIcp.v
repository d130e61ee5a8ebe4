(** Facts about the normal vectors of points. *)
From Verif Require Export FactsAlg FactsVec FactsMat FactsElem FactsEig FactsData FactsData2 FactsPCA FactsPCA2 FactsTree FactsOctree2 FactsOctree3 FactsBox FactsSvd FactsProfile FactsProfile2 FactsProfile3 FactsProfile4 SpecIcp ModelIcp.
From Coq Require Import Lra Lia List Permutation.
Import ListNotations.
Open Scope R_scope.

(** ** containers *)
Lemma while_user {T} (body : T -> vec3 -> T + T) fuel : forall d s d' s', user_data d -> while_fetch fuel d s body = Some (d', s') -> user_data d'.
Proof.
  induction fuel as [|k IH]; intros d s d' s' U E; cbn [while_fetch] in E; [discriminate|].
  pose proof (U_op d OFetch U) as U1. cbn [run_op] in U1. destruct (zVecXDDataFetch d) as [d1 [v|]]; cbn [fst] in U1; [|inversion E; subst; exact U1].
  destruct (body s v); [exact (IH _ _ _ _ U1 E)|inversion E; subst; exact U1].
Qed.
Lemma holds_wf d l : holds d l -> wf d /\ contents d = l.
Proof. intros [U E]. exact (data_of d l U E). Qed.
Lemma wf_holds d l : user_data d -> contents d = l -> holds d l.
Proof. intros U <-. split; [exact U|]. destruct (to_addr_list d (user_wf d U)) as (d' & E & _). eauto. Qed.
Lemma while_holds {T} (body : T -> vec3 -> T + T) d l s : holds d l -> exists d', while_fetch (fuel_of d) (zVecXDDataRewind d) s body = Some (d', fold_brk body s l) /\ holds d' l.
Proof.
  intros H. destruct (holds_wf d l H) as [W C]. destruct (while_all body d s W) as (d' & E & _ & C' & _). exists d'. rewrite C in E. split; [exact E|].
  apply wf_holds; [|congruence]. eapply while_user; [|exact E]. exact (U_op d ORewind (proj1 H)).
Qed.
Lemma bary_holds d l : holds d l -> l <> [] -> exists d', zVec3DDataBarycenter d = Some (d', Some (vmean l)) /\ holds d' l.
Proof.
  intros H NE. destruct (bary_eq d l (proj1 H) (proj2 H) NE) as (d' & E & W & C). exists d'. split; [exact E|]. apply wf_holds; [|exact C].
  unfold zVec3DDataBarycenter in E. destruct (zVecXDDataIsEmpty d); [inversion E; subst; exact (proj1 H)|].
  destruct (while_fetch _ _ _ _) as [[d1 c]|] eqn:Q; [|discriminate]. inversion E; subst. eapply while_user; [|exact Q]. exact (U_op d ORewind (proj1 H)).
Qed.
Lemma add_user (d : data vec3) v : user_data d -> user_data (fst (zVecXDDataAdd d v)).
Proof. intros U. pose proof (U_op d (OAdd v) U) as H. cbn [run_op] in H. destruct (zVecXDDataAdd d v); exact H. Qed.
Lemma addr_add (d : data vec3) v : d_method d = MAddrList \/ d_method d = MList -> snd (zVecXDDataAdd d v) = true /\ d_method (fst (zVecXDDataAdd d v)) = d_method d /\ contents (fst (zVecXDDataAdd d v)) = contents d ++ [v].
Proof. intros [M|M]; unfold zVecXDDataAdd, contents; rewrite M; cbn; auto. Qed.

(** ** limits *)
Lemma symeig_loop_more n m : (n <= m)%nat -> forall st r, zMat3DSymEigLoop n st = Some r -> zMat3DSymEigLoop m st = Some r.
Proof.
  revert m. induction n as [|n IH]; intros m L st r E; cbn [zMat3DSymEigLoop] in E; [discriminate|]. destruct m as [|m]; [lia|]. cbn [zMat3DSymEigLoop].
  destruct (zMat3DSymEigStep st) as [st' [|]]; [exact E|]. apply IH; [lia|exact E].
Qed.
Lemma symeig_more n m a r : (n <= m)%nat -> zMat3DSymEig n a = Some r -> zMat3DSymEig m a = Some r.
Proof.
  intros L E. unfold zMat3DSymEig in *. destruct (zMat3DSymEigLoop n _) as [st|] eqn:Q; [|discriminate]. rewrite (symeig_loop_more n m L _ _ Q). exact E.
Qed.
Lemma normal_more n m d c r : (n <= m)%nat -> zVec3DDataMeanNormal n d c = Some r -> zVec3DDataMeanNormal m d c = Some r.
Proof.
  intros L E. unfold zVec3DDataMeanNormal, zVec3DDataPCA in *. destruct (zVec3DDataCov d c) as [[d' [vm|]]|]; try exact E.
  destruct (zMat3DSymEig n vm) as [q|] eqn:Q; [|discriminate]. rewrite (symeig_more n m _ _ L Q). exact E.
Qed.

(** ** searches return containers *)
Lemma vic_test_user p q r2 v v' : user_data v -> zVec3DTreeVicinityTest p q r2 v = Some v' -> user_data v'.
Proof.
  intros U E. unfold zVec3DTreeVicinityTest in E. destruct (Rltb _ _); [|inversion E; subst; exact U]. pose proof (add_user v p U) as H. destruct (zVecXDDataAdd v p) as [v1 [|]]; [|discriminate]. inversion E; subst. exact H.
Qed.
Lemma vic_opp_user q r2 t : forall v v', user_data v -> zVec3DTreeVicinityOpp t q r2 v = Some v' -> user_data v'.
Proof.
  induction t as [|a i b p reg c0 IH0 c1 IH1]; intros v v' U E; cbn [zVec3DTreeVicinityOpp] in E; [inversion E; subst; exact U|].
  destruct (zVec3DTreeVicinityTest p q r2 v) as [v1|] eqn:E1; [|discriminate]. cbn [bind] in E. pose proof (vic_test_user _ _ _ _ _ U E1) as U1.
  match type of E with bind ?x _ = _ => destruct x as [v2|] eqn:E2; [|discriminate] end. cbn [bind] in E.
  assert (U2 : user_data v2). { destruct c0 as [|x1 x2 x3 x4 x5 x6 x7]; [inversion E2; subst; exact U1|]. destruct (Rltb _ _); [exact (IH0 _ _ U1 E2)|inversion E2; subst; exact U1]. }
  clear E1 E2. destruct c1 as [|x1 x2 x3 x4 x5 x6 x7]; [inversion E; subst; exact U2|]. destruct (Rltb _ _); [exact (IH1 _ _ U2 E)|inversion E; subst; exact U2].
Qed.
Lemma vic_node_user q r2 t : forall v v', user_data v -> zVec3DTreeVicinity_node t q r2 v = Some v' -> user_data v'.
Proof.
  induction t as [|a i b p reg c0 IH0 c1 IH1]; intros v v' U E; cbn [zVec3DTreeVicinity_node] in E; [inversion E; subst; exact U|]. cbv zeta in E.
  destruct (zVec3DTreeChooseBranch b p q).
  - destruct (zVec3DTreeVicinity_node c0 q r2 v) as [v1|] eqn:E1; [|discriminate]. cbn [bind] in E. pose proof (IH0 _ _ U E1) as U1.
    destruct (zVec3DTreeVicinityTest p q r2 v1) as [v2|] eqn:E2; [|discriminate]. cbn [bind] in E. pose proof (vic_test_user _ _ _ _ _ U1 E2) as U2.
    clear E1 E2. destruct c1 as [|x1 x2 x3 x4 x5 x6 x7]; [inversion E; subst; exact U2|]. destruct (Rltb _ _); [exact (vic_opp_user _ _ _ _ _ U2 E)|inversion E; subst; exact U2].
  - destruct (zVec3DTreeVicinity_node c1 q r2 v) as [v1|] eqn:E1; [|discriminate]. cbn [bind] in E. pose proof (IH1 _ _ U E1) as U1.
    destruct (zVec3DTreeVicinityTest p q r2 v1) as [v2|] eqn:E2; [|discriminate]. cbn [bind] in E. pose proof (vic_test_user _ _ _ _ _ U1 E2) as U2.
    clear E1 E2. destruct c0 as [|x1 x2 x3 x4 x5 x6 x7]; [inversion E; subst; exact U2|]. destruct (Rltb _ _); [exact (vic_opp_user _ _ _ _ _ U2 E)|inversion E; subst; exact U2].
Qed.
Lemma tree_vic_user t q r v : zVec3DTreeVicinity t q r = Some v -> user_data v.
Proof. unfold zVec3DTreeVicinity. destruct t as [|a0 a1 a2 a3 a4 a5 a6]; [discriminate|]. intros E. eapply vic_node_user; [|exact E]. exact U_addrlist. Qed.
Lemma oct_leaf_user q r2 l : forall s v, (forall d, s = Some d -> user_data d) -> fold_left (vic_step q r2) l s = Some v -> user_data v.
Proof.
  induction l as [|p l IH]; intros s v U E; cbn [fold_left] in E; [exact (U v E)|]. eapply IH; [|exact E]. intros d H. unfold vic_step in H. destruct s as [vc|]; [|discriminate]. specialize (U vc eq_refl).
  destruct (Rltb _ _); [|inversion H; subst; exact U]. pose proof (add_user vc p U) as A. destruct (zVecXDDataAdd vc p) as [v1 [|]]; [|discriminate]. inversion H; subst. exact A.
Qed.
Lemma oct_vic_user q r2 o : forall s v, (forall d, s = Some d -> user_data d) -> zVec3DOctantVicinity o q r2 s = Some v -> user_data v.
Proof.
  induction o as [|r c pts sub IH]; intros s v U E; cbn [zVec3DOctantVicinity] in E; [exact (U v E)|]. destruct (Rleb _ _); [exact (U v E)|].
  destruct pts as [|p0 pts]; [|eapply oct_leaf_user; [exact U|exact E]].
  revert s v U E. induction octs as [|i is IHi]; intros s v U E; cbn [fold_left] in E; [exact (U v E)|]. eapply IHi; [|exact E]. intros d H. destruct s as [vc|]; [|discriminate]. eapply IH; [exact U|exact H].
Qed.
Lemma octree_vic_user t q r v : zVec3DOctreeVicinity t q r = Some v -> user_data v.
Proof. intros E. eapply oct_vic_user; [|exact E]. intros d H. inversion H; subst. exact U_addrlist. Qed.
(** ** the loop *)
Definition searches (vic : vec3 -> option (data vec3)) (l : list vec3) (r : R) : Prop :=
  forall q, exists v m, vic q = Some v /\ holds v m /\ Permutation m (filter (fun p => Rltb (dist p q) r) l).
Lemma spread_rev l c x : spread l c (vneg x) = spread l c x.
Proof. unfold spread. apply mean_ext'. intros p _. rewrite !(dot_comm (vsub p c)). unfold vneg, dot. cbn [vx vy vz]. ring. Qed.
Lemma dist_zero_self p : dist p p = 0. Proof. unfold dist. apply norm_zero_iff. unfold vsub. apply vec3_ext; cbn; ring. Qed.
Lemma filter_split {A} (f : A -> bool) l : Permutation (filter f l ++ filter (fun x => negb (f x)) l) l.
Proof.
  induction l as [|a l IH]; [reflexivity|]. cbn [filter]. destruct (f a); cbn [negb app]; [constructor; exact IH|]. rewrite <- Permutation_middle. constructor. exact IH.
Qed.
Lemma one_normal vic l r c q : searches vic l r -> List.In q l -> 0 < r -> exists n, forall fuel, (n <= fuel)%nat -> exists v w, vic q = Some v /\ zVec3DDataNormalVecFromVicinity fuel v q c = Some w /\ normal_at l r c q w.
Proof.
  intros SV Hq Hr. destruct (SV q) as (v & m & E & H & P).
  assert (NE : m <> []). { intros ->. assert (X : List.In q (filter (fun p => Rltb (dist p q) r) l)). { apply filter_In. split; [exact Hq|]. rewrite dist_zero_self. destruct (Rltb_reflect 0 r); [reflexivity|lra]. } rewrite <- P in X. exact X. }
  destruct (pca_normal v m q (proj1 H) (proj2 H) NE) as ((n & d' & w & T) & S). exists n. intros fuel L. pose proof (normal_more n fuel _ _ _ L T) as T'. destruct (S _ _ _ T') as (w' & W1 & W2 & W3). inversion W1; subst w'. clear W1.
  exists v, (if Rltb (zVec3DInnerProd w (zVec3DSub q c)) 0 then zVec3DRev w else w). split; [exact E|]. split; [unfold zVec3DDataNormalVecFromVicinity; rewrite T'; reflexivity|].
  assert (F : flattest l r q w).
  { exists m, (filter (fun x => negb (Rltb (dist x q) r)) l). split; [|split; [|split]].
    - rewrite P. apply (filter_split (fun p => Rltb (dist p q) r)).
    - intros p Hp. rewrite P in Hp. apply filter_In in Hp. destruct Hp as [_ Hp]. destruct (Rltb_reflect (dist p q) r); [assumption|discriminate].
    - intros p Hp. apply filter_In in Hp. destruct Hp as [_ Hp]. destruct (Rltb_reflect (dist p q) r); [discriminate|lra].
    - exact W3. }
  change (zVec3DInnerProd w (zVec3DSub q c)) with (dot w (vsub q c)). change (zVec3DRev w) with (vneg w).
  destruct (Rltb_reflect (dot w (vsub q c)) 0) as [K|K].
  - split; [|split].
    + unfold norm in *. replace (dot (vneg w) (vneg w)) with (dot w w) by (unfold vneg, dot; cbn [vx vy vz]; ring). exact W2.
    + unfold outward. replace (dot (vneg w) (vsub q c)) with (- dot w (vsub q c)) by (unfold vneg, dot; cbn [vx vy vz]; ring). lra.
    + destruct F as (a & b & F1 & F2 & F3 & F4). exists a, b. split; [exact F1|split; [exact F2|split; [exact F3|]]]. intros x Hx. rewrite spread_rev. apply F4. exact Hx.
  - split; [exact W2|split; [unfold outward; lra|exact F]].
Qed.
Lemma normal_loop vic l r c : searches vic l r -> 0 < r -> forall l', (forall q, List.In q l' -> List.In q l) ->
  exists n, forall fuel, (n <= fuel)%nat -> forall nd, user_data nd -> d_method nd = MList -> exists nd' ns, fold_brk (normal_body fuel vic c) (NData nd) l' = NData nd' /\ user_data nd' /\ contents nd' = contents nd ++ ns /\ Forall2 (normal_at l r c) l' ns.
Proof.
  intros SV Hr. induction l' as [|q l' IH]; intros I.
  - exists 0%nat. intros fuel _ nd U M. exists nd, []. cbn [fold_brk]. rewrite app_nil_r. repeat split; auto.
  - destruct (one_normal vic l r c q SV (I q (or_introl eq_refl)) Hr) as (n1 & H1). destruct (IH (fun x Hx => I x (or_intror Hx))) as (n2 & H2). exists (Nat.max n1 n2). intros fuel L nd U M.
    destruct (H1 fuel ltac:(lia)) as (v & w & E & EW & NW). cbn [fold_brk]. unfold normal_body at 1. rewrite E, EW. destruct (addr_add nd w (or_intror M)) as (A1 & A2 & A3). pose proof (add_user nd w U) as A4. destruct (zVecXDDataAdd nd w) as [nd1 b]. cbn [fst snd] in *. subst b.
    destruct (H2 fuel ltac:(lia) nd1 A4 ltac:(congruence)) as (nd' & ns & G1 & G2 & G3 & G4). exists nd', (w :: ns). split; [exact G1|split; [exact G2|split; [rewrite G3, A3, <- app_assoc; reflexivity|constructor; assumption]]].
Qed.
(** ** theorems *)
Lemma tree_searches l r : l <> [] -> 0 <= r -> searches (fun v => zVec3DTreeVicinity (fold_left zVec3DTreeAddPoint l zVec3DTreeInit) v r) l r.
Proof.
  intros NE Hr q. destruct (tree_vicinity l q r NE Hr) as (v & d' & m & E & T & P). exists v, m. split; [exact E|]. split; [|exact P]. split; [|eauto]. eapply tree_vic_user; exact E.
Qed.
Lemma to_tree d l : holds d l -> exists d', zVec3DDataToTree d = Some (d', fold_left zVec3DTreeAddPoint l zVec3DTreeInit) /\ holds d' l.
Proof.
  intros H. unfold zVec3DDataToTree, zVec3DTreeAddData. destruct (while_holds (fun t v => inl (zVec3DTreeAddPoint t v)) d l zVec3DTreeInit H) as (d' & E & H'). exists d'. rewrite fold_brk_fold in E. split; [exact E|exact H'].
Qed.
Lemma normal_tree d l r : holds d l -> l <> [] -> 0 < r -> exists n, forall fuel, (n <= fuel)%nat -> exists d' nd ns,
  zVec3DDataNormalVec_Tree fuel d r = Some (d', NData nd) /\ holds d' l /\ holds nd ns /\ Forall2 (normal_at l r (vmean l)) l ns.
Proof.
  intros H NE Hr. destruct (to_tree d l H) as (d1 & E1 & H1). destruct (bary_holds d1 l H1 NE) as (d2 & E2 & H2).
  destruct (normal_loop _ l r (vmean l) (tree_searches l r NE ltac:(lra)) Hr l (fun q Hq => Hq)) as (n & L). exists n. intros fuel F. destruct (L fuel F zVecXDDataInitList U_list eq_refl) as (nd & ns & G1 & G2 & G3 & G4).
  unfold zVec3DDataNormalVec_Tree. rewrite E1, E2.
  match goal with |- context [while_fetch _ _ ?s ?b] => destruct (while_holds b d2 l s H2) as (d3 & E3 & H3) end. rewrite E3. exists d3, nd, ns. split; [rewrite <- G1; reflexivity|]. split; [exact H3|]. split; [|exact G4]. apply wf_holds; [exact G2|exact G3].
Qed.
Lemma oct_add_more n m p res : (n <= m)%nat -> forall o o', zVec3DOctantAddPoint n o p res = Some o' -> zVec3DOctantAddPoint m o p res = Some o'.
Proof.
  revert m. induction n as [|n IH]; intros m L o o' E; [destruct o; discriminate|]. destruct m as [|m]; [lia|]. destruct o as [|reg c pts sub]; [discriminate|]. cbn [zVec3DOctantAddPoint] in *. destruct (zVec3DOctantIsSmallest reg res); [exact E|].
  destruct (zVec3DOctantAddPoint n _ p res) as [s|] eqn:Q; [|discriminate]. rewrite (IH m ltac:(lia) _ _ Q). exact E.
Qed.
Lemma octree_add_more n m t p r : (n <= m)%nat -> zVec3DOctreeAddPoint n t p = Some r -> zVec3DOctreeAddPoint m t p = Some r.
Proof.
  intros L E. unfold zVec3DOctreeAddPoint in *. destruct (o_root t) as [|reg c pts sub]; [discriminate|]. destruct (negb _); [exact E|]. destruct (zVec3DOctantAddPoint n _ p _) as [s|] eqn:Q; [|discriminate]. rewrite (oct_add_more n m _ _ L _ _ Q). exact E.
Qed.
Lemma octree_data_more n m t d l d' t' b : holds d l -> (n <= m)%nat -> zVec3DOctreeAddData n t d = Some (d', Some (t', b)) -> exists d'', zVec3DOctreeAddData m t d = Some (d'', Some (t', b)) /\ holds d'' l.
Proof.
  intros H L E. unfold zVec3DOctreeAddData in *.
  match type of E with while_fetch _ _ ?s ?b = _ => destruct (while_holds b d l s H) as (d3 & E3 & H3) end. rewrite E3 in E. clear E3. injection E as _ E.
  match goal with |- context [while_fetch _ _ ?s ?b] => destruct (while_holds b d l s H) as (d4 & E4 & H4) end. rewrite E4. exists d4. split; [|exact H4]. do 2 f_equal. clear -L E. revert t E.
  induction l as [|p l IH]; intros t E; cbn [fold_brk] in *; [exact E|]. destruct (zVec3DOctreeAddPoint n t p) as [[t1 b1]|] eqn:Q; [|discriminate]. rewrite (octree_add_more n m _ _ _ L Q). destruct b1; [exact (IH _ E)|exact E].
Qed.
Lemma normal_octree d l r : holds d l -> l <> [] -> 0 < r -> exists n, forall fuel, (n <= fuel)%nat -> exists d' nd ns,
  zVec3DDataNormalVec fuel d r = Some (d', NData nd) /\ holds d' l /\ holds nd ns /\ Forall2 (normal_at l r (vmean l)) l ns.
Proof.
  intros H NE Hr. unfold zVec3DDataNormalVec, zVec3DDataNormalVec_Octree.
  destruct (while_holds (fun l v => inl (l ++ [v])) d l (@nil vec3) H) as (d1 & E1 & H1).
  assert (EA : zVecXDDataToAddrList d = Some (d1, l)). { destruct (proj2 H) as (dx & X). unfold zVecXDDataToAddrList in *. congruence. }
  rewrite EA. destruct (ModelBox.zVec3DDataAABB l) as [[bb vp]|] eqn:EB; [|apply aabb_empty in EB; congruence].
  destruct (aabb_bounds l bb vp EB) as (_ & BB & _).
  destruct (octree_data (vx (bmin bb)) (vy (bmin bb)) (vz (bmin bb)) (vx (bmax bb)) (vy (bmax bb)) (vz (bmax bb)) r d1 l ltac:(lra) (proj1 H1) (proj2 H1)) as (n0 & H0).
  { intros p Hp. specialize (BB p Hp). unfold in_box in BB. unfold betw. repeat split; left; lra. }
  destruct (H0 n0 (le_n _)) as (d2 & t & E2 & A2). clear H0.
  assert (SV : searches (fun v => zVec3DOctreeVicinity t v r) l r).
  { intros q. destruct (proj1 A2 q r ltac:(lra)) as (v & d' & m & E & T & P). exists v, m. split; [exact E|]. split; [|exact P]. split; [|eauto]. eapply octree_vic_user; exact E. }
  destruct (normal_loop _ l r (vmean l) SV Hr l (fun q Hq => Hq)) as (n & L). exists (Nat.max n0 n). intros fuel F. destruct (L fuel ltac:(lia) zVecXDDataInitList U_list eq_refl) as (nd & ns & G1 & G2 & G3 & G4).
  destruct (octree_data_more n0 fuel _ _ _ _ _ _ H1 ltac:(lia) E2) as (d3 & E3 & H3). rewrite E3.
  destruct (bary_holds d3 l H3 NE) as (d4 & E4 & H4). rewrite E4.
  match goal with |- context [while_fetch _ _ ?s ?b] => destruct (while_holds b d4 l s H4) as (d5 & E5 & H5) end. rewrite E5. exists d5, nd, ns. split; [rewrite <- G1; reflexivity|]. split; [exact H5|]. split; [|exact G4]. apply wf_holds; [exact G2|exact G3].
Qed.
(** no point *)
Lemma normal_none d r fuel : holds d [] -> (exists d' nd, zVec3DDataNormalVec_Tree fuel d r = Some (d', NData nd) /\ holds nd []) /\ (exists d', zVec3DDataNormalVec fuel d r = Some (d', NUndef)).
Proof.
  intros H. split.
  - unfold zVec3DDataNormalVec_Tree. destruct (to_tree d [] H) as (d1 & E1 & H1). rewrite E1. destruct (holds_wf d1 [] H1) as [W1 C1]. unfold zVec3DDataBarycenter. rewrite empty_spec, C1 by exact W1.
    match goal with |- context [while_fetch _ _ ?s ?b] => destruct (while_holds b d1 [] s H1) as (d3 & E3 & H3) end. rewrite E3. exists d3, zVecXDDataInitList. split; [reflexivity|]. apply wf_holds; [exact U_list|reflexivity].
  - unfold zVec3DDataNormalVec, zVec3DDataNormalVec_Octree. destruct (proj2 H) as (d' & E). rewrite E. exists d'. reflexivity.
Qed.
(** no radius: the vicinity is empty and the normal vector is not set *)
Lemma normal_zero d l : holds d l -> l <> [] -> forall fuel, exists d', zVec3DDataNormalVec_Tree fuel d 0 = Some (d', NUndef).
Proof.
  intros H NE fuel. unfold zVec3DDataNormalVec_Tree. destruct (to_tree d l H) as (d1 & E1 & H1). rewrite E1. destruct (bary_holds d1 l H1 NE) as (d2 & E2 & H2). rewrite E2.
  match goal with |- context [while_fetch _ _ ?s ?b] => destruct (while_holds b d2 l s H2) as (d3 & E3 & H3) end. rewrite E3. exists d3. do 2 f_equal. clear E3.
  pose proof (tree_searches l 0 NE (Rle_refl 0)) as SV. revert SV. generalize (fun v => zVec3DTreeVicinity (fold_left zVec3DTreeAddPoint l zVec3DTreeInit) v 0). intros vic SV. destruct l as [|q l0]; [congruence|]. cbn [fold_brk]. unfold normal_body at 1. destruct (SV q) as (v & m & E & Hv & P). rewrite E.
  assert (Z : filter (fun p => Rltb (dist p q) 0) (q :: l0) = []). { generalize (q :: l0). intros k. induction k as [|a k IH]; [reflexivity|]. cbn [filter]. pose proof (norm_nonneg (vsub a q)) as N. change (norm (vsub a q)) with (dist a q) in N. destruct (Rltb_reflect (dist a q) 0); [lra|exact IH]. }
  rewrite Z in P. apply Permutation_sym, Permutation_nil in P. subst m. destruct (holds_wf v [] Hv) as [Wv Cv].
  unfold zVec3DDataNormalVecFromVicinity, zVec3DDataMeanNormal, zVec3DDataPCA, zVec3DDataCov. rewrite empty_spec, Cv by exact Wv. reflexivity.
Qed.
Lemma normal_zero_octree d l : holds d l -> l <> [] -> exists n, forall fuel, (n <= fuel)%nat -> exists d', zVec3DDataNormalVec fuel d 0 = Some (d', NUndef).
Proof.
  intros H NE. unfold zVec3DDataNormalVec, zVec3DDataNormalVec_Octree.
  destruct (while_holds (fun l v => inl (l ++ [v])) d l (@nil vec3) H) as (d1 & E1 & H1).
  assert (EA : zVecXDDataToAddrList d = Some (d1, l)). { destruct (proj2 H) as (dx & X). unfold zVecXDDataToAddrList in *. congruence. }
  rewrite EA. destruct (ModelBox.zVec3DDataAABB l) as [[bb vp]|] eqn:EB; [|apply aabb_empty in EB; congruence]. destruct (aabb_bounds l bb vp EB) as (_ & BB & _).
  destruct (octree_data (vx (bmin bb)) (vy (bmin bb)) (vz (bmin bb)) (vx (bmax bb)) (vy (bmax bb)) (vz (bmax bb)) 0 d1 l ltac:(lra) (proj1 H1) (proj2 H1)) as (n0 & H0).
  { intros p Hp. specialize (BB p Hp). unfold in_box in BB. unfold betw. repeat split; left; lra. }
  exists n0. intros fuel F. destruct (H0 fuel F) as (d2 & t & E2 & A2). destruct (octree_data_more fuel fuel _ _ _ _ _ _ H1 (le_n _) E2) as (d3 & E3 & H3). rewrite E3.
  destruct (bary_holds d3 l H3 NE) as (d4 & E4 & H4). rewrite E4.
  match goal with |- context [while_fetch _ _ ?s ?b] => destruct (while_holds b d4 l s H4) as (d5 & E5 & H5) end. rewrite E5. exists d5. do 2 f_equal. clear E5.
  destruct l as [|q l0]; [congruence|]. cbn [fold_brk]. unfold normal_body at 1. destruct (proj1 A2 q 0 (Rle_refl 0)) as (v & dv & m & E & T & P). rewrite E.
  assert (Z : filter (fun p => Rltb (dist p q) 0) (q :: l0) = []). { generalize (q :: l0). intros k. induction k as [|a k IH]; [reflexivity|]. cbn [filter]. pose proof (norm_nonneg (vsub a q)) as N. change (norm (vsub a q)) with (dist a q) in N. destruct (Rltb_reflect (dist a q) 0); [lra|exact IH]. }
  rewrite Z in P. apply Permutation_sym, Permutation_nil in P. subst m. assert (Hv : holds v []) by (split; [eapply octree_vic_user; exact E|eauto]). destruct (holds_wf v [] Hv) as [Wv Cv].
  unfold zVec3DDataNormalVecFromVicinity, zVec3DDataMeanNormal, zVec3DDataPCA, zVec3DDataCov. rewrite empty_spec, Cv by exact Wv. reflexivity.
Qed.

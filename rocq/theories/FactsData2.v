(** Statements about containers in terms of what users call. *)
From Verif Require Import Base Spec SpecGeom SpecData ModelVec ModelData FactsVec FactsAlg FactsData.
From Coq Require Import Lia Lra.
Open Scope R_scope.

(** containers a user can have: a fresh or assigned one after any history of operations *)
Inductive user_data {A} : data A -> Prop :=
| U_list : user_data zVecXDDataInitList
| U_addrlist : user_data zVecXDDataInitAddrList
| U_array cap : user_data (zVecXDDataInitArray cap)
| U_direct l : user_data (zVecXDDataAssignArrayDirect l)
| U_arrayptr l : user_data (zVecXDDataAssignArray l)
| U_listptr l : user_data (zVecXDDataAssignList l)
| U_addrlistptr l : user_data (zVecXDDataAssignAddrList l)
| U_op d o : user_data d -> user_data (fst (run_op d o)).
Lemma op_wf {A} (d : data A) o : wf d -> wf (fst (run_op d o)).
Proof.
  intros W. destruct o as [v| | | | |]; cbn [run_op fst]; auto.
  - destruct (d_method d) eqn:M.
    2: { pose proof (array_add d v W M) as P. destruct (zVecXDDataAdd d v) as [d1 b]. cbn [fst]. destruct (Nat.leb (d_cap d) (d_i d)); [destruct P as [_ ->]; exact W|apply P]. }
    all: unfold zVecXDDataAdd; rewrite M; cbn [fst]; auto; unfold wf in *; rewrite M in W; cbn [d_method listlike d_c d_store] in *; destruct (d_c d); auto; rewrite app_length; lia.
  - apply rewind_spec. exact W.
  - pose proof (fetch_spec d W) as P. destruct (zVecXDDataFetch d) as [d1 p]. apply P.
Qed.
Lemma assign_wf {A} (l : list A) : wf (zVecXDDataAssignArrayDirect l) /\ contents (zVecXDDataAssignArrayDirect l) = l /\ place (zVecXDDataAssignArrayDirect l) = first l /\
  wf (zVecXDDataAssignArray l) /\ contents (zVecXDDataAssignArray l) = l /\ place (zVecXDDataAssignArray l) = first l /\
  wf (zVecXDDataAssignList l) /\ contents (zVecXDDataAssignList l) = l /\ place (zVecXDDataAssignList l) = first l /\
  wf (zVecXDDataAssignAddrList l) /\ contents (zVecXDDataAssignAddrList l) = l /\ place (zVecXDDataAssignAddrList l) = first l.
Proof.
  unfold zVecXDDataAssignArrayDirect, zVecXDDataAssignArray, zVecXDDataAssignList, zVecXDDataAssignAddrList.
  destruct l as [|a l]; unfold wf, contents, place, zVecXDDataRewind, first; cbn [d_method listlike d_c d_store d_i d_size d_cap length firstn Nat.ltb Nat.leb]; repeat split; auto; try lia; f_equal; apply firstn_all.
Qed.
Lemma user_wf {A} (d : data A) : user_data d -> wf d.
Proof.
  induction 1; try (exact I); try (destruct (assign_wf l) as (H1 & _ & _ & H2 & _ & _ & H3 & _ & _ & H4 & _); assumption).
  - unfold zVecXDDataInitArray, wf; cbn. lia.
  - apply op_wf. exact IHuser_data.
Qed.
(** every container holds a definite sequence, which all functions agree on *)
Lemma container_ok {A} (d : data A) : user_data d -> exists l,
  zVecXDDataSize d = length l /\ zVecXDDataIsEmpty d = (match l with [] => true | _ => false end) /\
  (exists d', zVecXDDataToAddrList d = Some (d', l)) /\
  (forall h, reading h -> snd (run_ops (zVecXDDataRewind d) h) = observe l (first l) h) /\
  (forall eqb x, exists d', zVecXDDataFind eqb d x = Some (d', find (eqb x) l)) /\
  (forall f g, exists d' dst, zVecXDDataXform f g d = Some (d', dst) /\ exists d'', zVecXDDataToAddrList dst = Some (d'', map (fun v => g (f v)) l)).
Proof.
  intros U. pose proof (user_wf d U) as W. exists (contents d). repeat match goal with |- _ /\ _ => split end.
  - apply size_spec; exact W.
  - apply empty_spec; exact W.
  - destruct (to_addr_list d W) as (d' & E & _). exists d'. exact E.
  - intros h R. destruct (rewind_spec d W) as (W1 & C1 & P1 & _). destruct (fixed_history h _ W1 (or_intror R)) as (H & _). rewrite H, C1, P1. apply observe_reading. exact R.
  - intros eqb x. destruct (data_find eqb d x W) as (d' & E & _). exists d'. exact E.
  - intros f g. destruct (data_xform f g d W) as (d' & dst & E & _ & _ & C & W2). exists d', dst. split; [exact E|]. destruct (to_addr_list dst W2) as (d'' & E2 & _). exists d''. rewrite E2, C. reflexivity.
Qed.
Lemma list_container {A} (d0 : data A) h : d0 = zVecXDDataInitList \/ d0 = zVecXDDataInitAddrList ->
  snd (run_ops d0 h) = observe [] None h /\ exists d', zVecXDDataToAddrList (fst (run_ops d0 h)) = Some (d', added h).
Proof.
  intros E. assert (W : wf d0) by (destruct E as [-> | ->]; exact I). assert (M : d_method d0 = MList \/ d_method d0 = MAddrList) by (destruct E as [-> | ->]; auto).
  destruct (list_history h d0 W M) as (H1 & H2 & H3). assert (C : contents d0 = [] /\ place d0 = None) by (destruct E as [-> | ->]; auto). destruct C as [C P]. rewrite C, P in *.
  split; [exact H1|]. destruct (to_addr_list _ H3) as (d' & T & _). exists d'. rewrite T, H2. reflexivity.
Qed.
Lemma fixed_container {A} (l : list A) (d0 : data A) h : d0 = zVecXDDataAssignArrayDirect l \/ d0 = zVecXDDataAssignArray l \/ d0 = zVecXDDataAssignList l \/ d0 = zVecXDDataAssignAddrList l ->
  snd (run_ops d0 h) = observe_fixed l (first l) h /\ exists d', zVecXDDataToAddrList (fst (run_ops d0 h)) = Some (d', l).
Proof.
  intros E. destruct (assign_wf l) as (W1 & C1 & P1 & W2 & C2 & P2 & W3 & C3 & P3 & W4 & C4 & P4).
  assert (H : wf d0 /\ contents d0 = l /\ place d0 = first l /\ growable (d_method d0) = false).
  { destruct E as [-> |[-> |[-> | ->]]]; repeat match goal with |- _ /\ _ => split end; auto; destruct l; reflexivity. }
  destruct H as (W & C & P & G). destruct (fixed_history h d0 W (or_introl G)) as (H1 & H2 & H3). rewrite C, P in *. split; [exact H1|]. destruct (to_addr_list _ H3) as (d' & T & _). exists d'. rewrite T, H2. reflexivity.
Qed.
Lemma array_container {A} cap (vs : list A) h : reading h ->
  snd (run_ops (zVecXDDataInitArray cap) (map OAdd vs ++ h)) = map (fun k => BFlag (Nat.ltb k cap)) (seq 0 (length vs)) ++ observe (firstn cap vs) None h /\
  exists d', zVecXDDataToAddrList (fst (run_ops (zVecXDDataInitArray cap) (map OAdd vs ++ h))) = Some (d', firstn cap vs).
Proof.
  intros R. destruct (array_adds vs (zVecXDDataInitArray cap)) as (C & W & M & I & K & O); [unfold wf; cbn; lia|reflexivity|reflexivity|]. cbn [zVecXDDataInitArray contents d_method listlike d_size d_store d_cap firstn app length] in C, O.
  rewrite run_app. cbn [fst snd]. rewrite O. set (d1 := fst (run_ops (zVecXDDataInitArray cap) (map OAdd vs))) in *.
  destruct (fixed_history h d1 W (or_intror R)) as (H1 & H2 & H3).
  assert (P : place d1 = None). { unfold place. rewrite M. cbn [listlike]. rewrite I. unfold contents. rewrite M. cbn [listlike]. unfold wf in W. rewrite M in W. cbn [listlike] in W. rewrite firstn_length, Nat.min_l by apply W. rewrite Nat.ltb_irrefl. reflexivity. }
  rewrite H1, C, P. split; [f_equal; apply observe_reading; exact R|]. destruct (to_addr_list _ H3) as (d' & T & _). exists d'. rewrite T, H2, C. reflexivity.
Qed.
(** adding after reading k points: the array keeps only these k points *)
Lemma array_overwrite {A} cap (vs : list A) k w : (length vs <= cap)%nat -> (k <= length vs)%nat -> (k < cap)%nat ->
  exists d', zVecXDDataToAddrList (fst (run_ops (zVecXDDataInitArray cap) (map OAdd vs ++ ORewind :: repeat OFetch k ++ [OAdd w]))) = Some (d', firstn k vs ++ [w]).
Proof.
  intros L1 L2 L3. destruct (array_adds vs (zVecXDDataInitArray cap)) as (C & W & M & I & K & O); [unfold wf; cbn; lia|reflexivity|reflexivity|]. cbn [zVecXDDataInitArray contents d_method listlike d_size d_store d_cap firstn app length] in C, O, K.
  rewrite run_app. cbn [fst]. set (d1 := fst (run_ops (zVecXDDataInitArray cap) (map OAdd vs))) in *. clearbody d1.
  cbn [run_ops run_op]. assert (Z := rewind_spec d1 W). destruct Z as (W2 & C2 & P2 & M2). rewrite firstn_all2 in C by exact L1.
  assert (F : forall j d, wf d -> d_method d = MArray -> d_cap d = cap -> contents d = vs -> (d_i d + j <= length vs)%nat ->
    let e := fst (run_ops d (repeat OFetch j)) in wf e /\ d_method e = MArray /\ d_cap e = cap /\ contents e = vs /\ d_i e = (d_i d + j)%nat).
  { induction j as [|j IH]; intros d Wd Md Kd Cd Ld; [cbn; rewrite Nat.add_0_r; auto|]. cbn [repeat run_ops run_op].
    destruct (fetch_spec d Wd) as (V3 & W3 & C3 & P3 & M3). 
    assert (Q : fst (zVecXDDataFetch d) = DT MArray (d_store d) (d_size d) (d_cap d) (S (d_i d)) (d_c d)).
    { unfold zVecXDDataFetch. rewrite peek_spec by exact Wd. unfold place, contents in *. rewrite Md in *. cbn [listlike] in *. unfold wf in Wd. rewrite Md in Wd. cbn [listlike] in Wd.
      assert (LS : (d_i d < d_size d)%nat). { assert (length (firstn (d_size d) (d_store d)) = length vs) by (rewrite Cd; reflexivity). rewrite firstn_length in H. lia. }
      rewrite (proj2 (Nat.ltb_lt _ _) LS). cbn [cur]. destruct (nth_error (firstn (d_size d) (d_store d)) (d_i d)) eqn:NE; [reflexivity|]. apply nth_error_None in NE. rewrite firstn_length in NE. lia. }
    destruct (zVecXDDataFetch d) as [d2 p]. cbn [fst] in *. subst d2. cbn [d_cap d_i] in *.
    specialize (IH (DT MArray (d_store d) (d_size d) (d_cap d) (S (d_i d)) (d_c d)) W3 eq_refl Kd). rewrite C3 in IH. cbn [d_i] in IH. specialize (IH Cd ltac:(lia)).
    destruct (run_ops _ (repeat OFetch j)) as [d3 bs]. cbn [fst] in *. rewrite Nat.add_succ_r. cbv zeta in *. rewrite <- Nat.add_succ_l. exact IH. }
  assert (K2 : d_cap (zVecXDDataRewind d1) = cap /\ d_i (zVecXDDataRewind d1) = 0%nat) by (unfold zVecXDDataRewind; rewrite M; cbn; auto).
  destruct (F k (zVecXDDataRewind d1) W2 ltac:(congruence) (proj1 K2) ltac:(congruence) ltac:(destruct K2; lia)) as (W4 & M4 & K4 & C4 & I4).
  destruct (run_ops (zVecXDDataRewind d1) (repeat OFetch k ++ [OAdd w])) as [d5 bs] eqn:R5. rewrite run_app in R5. apply pair_equal_spec in R5. destruct R5 as [R5 _].
  set (d4 := fst (run_ops (zVecXDDataRewind d1) (repeat OFetch k))) in *. cbn [run_ops run_op] in R5. cbn [fst].
  pose proof (array_add d4 w W4 M4) as AA. destruct (zVecXDDataAdd d4 w) as [d6 b]. cbn [fst] in R5. subst d6. rewrite I4, K4 in AA. destruct K2 as [_ K2]. rewrite K2, Nat.add_0_l in AA.
  rewrite (proj2 (Nat.leb_gt _ _) L3) in AA. destruct AA as (_ & W6 & C6 & _). destruct (to_addr_list _ W6) as (d' & T & _). exists d'. rewrite T, C6, C4. reflexivity.
Qed.
Lemma array_loss {A} cap (vs : list A) w : (length vs <= cap)%nat -> (1 <= cap)%nat ->
  exists d', zVecXDDataToAddrList (fst (run_ops (zVecXDDataInitArray cap) (map OAdd vs ++ [ORewind; OAdd w]))) = Some (d', [w]).
Proof. intros L1 L2. apply (array_overwrite cap vs 0 w); lia. Qed.
Lemma cpp_loss {A} (d : data A) l : snd (cpp_toAddrList d l) = l /\ exists d', zVecXDDataToAddrList (fst (cpp_toAddrList d l)) = Some (d', l).
Proof. split; [reflexivity|]. destruct (assign_wf l) as (_ & _ & _ & _ & _ & _ & _ & _ & _ & W & C & _). cbn [cpp_toAddrList fst]. destruct (to_addr_list _ W) as (d' & T & _). exists d'. rewrite T, C. reflexivity. Qed.
(** ** searches *)
Lemma sqd3 a b : zVec3DSqrDist a b = Rsqr (dist a b).
Proof. unfold dist. unfold Rsqr. rewrite norm_sqr. reflexivity. Qed.
Lemma sqd2 a b : zVec2DSqrDist a b = Rsqr (dist2 a b).
Proof. unfold dist2. unfold Rsqr. rewrite norm_2_sqr. reflexivity. Qed.
Lemma dist2_nonneg a b : 0 <= dist2 a b. Proof. apply sqrt_pos. Qed.
Lemma dist_nonneg a b : 0 <= dist a b. Proof. apply norm_nonneg. Qed.
Lemma rsqr_le a b : 0 <= a -> 0 <= b -> Rsqr a <= Rsqr b -> a <= b.
Proof. intros. apply Rsqr_incr_0; auto. Qed.
Lemma data_of {A} (d : data A) l : user_data d -> (exists d', zVecXDDataToAddrList d = Some (d', l)) -> wf d /\ contents d = l.
Proof. intros U (d' & E). pose proof (user_wf d U) as W. split; [exact W|]. destruct (to_addr_list d W) as (d'' & E' & _). congruence. Qed.
Lemma nn3 d l q : user_data d -> (exists d', zVecXDDataToAddrList d = Some (d', l)) -> l <> [] ->
  exists d' v, zVec3DDataNN d q = Some (d', (Some (dist v q), Some v)) /\ List.In v l /\ forall y, List.In y l -> dist v q <= dist y q.
Proof.
  intros U E NE. destruct (data_of d l U E) as [W C]. destruct (data_nn zVec3DSqrDist d q W ltac:(rewrite C; exact NE)) as (d' & v & R & _ & [V1 V2]). rewrite C in *.
  exists d', v. split; [|split; [exact V1|]].
  - unfold zVec3DDataNN. rewrite R. rewrite sqd3, sqrt_Rsqr by apply dist_nonneg. reflexivity.
  - intros y Hy. specialize (V2 y Hy). rewrite !sqd3 in V2. apply rsqr_le; auto using dist_nonneg.
Qed.
Lemma nn2 d l q : user_data d -> (exists d', zVecXDDataToAddrList d = Some (d', l)) -> l <> [] ->
  exists d' v, zVec2DDataNN d q = Some (d', (Some (dist2 v q), Some v)) /\ List.In v l /\ forall y, List.In y l -> dist2 v q <= dist2 y q.
Proof.
  intros U E NE. destruct (data_of d l U E) as [W C]. destruct (data_nn zVec2DSqrDist d q W ltac:(rewrite C; exact NE)) as (d' & v & R & _ & [V1 V2]). rewrite C in *.
  exists d', v. split; [|split; [exact V1|]].
  - unfold zVec2DDataNN. rewrite R. rewrite sqd2, sqrt_Rsqr by apply dist2_nonneg. reflexivity.
  - intros y Hy. specialize (V2 y Hy). rewrite !sqd2 in V2. apply rsqr_le; auto using dist2_nonneg.
Qed.
Lemma nn_empty3 d q : user_data d -> (exists d', zVecXDDataToAddrList d = Some (d', [])) -> zVec3DDataNN d q = Some (d, (None, None)).
Proof. intros U E. destruct (data_of d [] U E) as [W C]. apply data_nn_empty; auto. Qed.
Lemma rltb_sqr a r : 0 <= a -> 0 <= r -> Rltb (Rsqr a) (r * r) = Rltb a r.
Proof.
  intros Ha Hr. destruct (Rltb_reflect a r) as [H|H].
  - apply Rltb_true. change (r * r) with (Rsqr r). apply Rsqr_incrst_1; auto.
  - apply Rltb_false. change (r * r) with (Rsqr r). apply Rsqr_incr_1; auto. lra.
Qed.
Lemma vic3 d l q r : user_data d -> (exists d', zVecXDDataToAddrList d = Some (d', l)) -> 0 <= r ->
  exists d' vic d'', zVec3DDataVicinity d q r = Some (d', vic) /\ zVecXDDataToAddrList vic = Some (d'', filter (fun v => Rltb (dist v q) r) l).
Proof.
  intros U E Hr. destruct (data_of d l U E) as [W C]. destruct (data_vicinity zVec3DSqrDist d q r W) as (d' & vic & R & _ & WV & CV). rewrite C in CV.
  destruct (to_addr_list vic WV) as (d'' & T & _). exists d', vic, d''. split; [exact R|]. rewrite T, CV. f_equal. f_equal. apply filter_ext. intros v. rewrite sqd3. apply rltb_sqr; auto using dist_nonneg.
Qed.
Lemma vic2 d l q r : user_data d -> (exists d', zVecXDDataToAddrList d = Some (d', l)) -> 0 <= r ->
  exists d' vic d'', zVec2DDataVicinity d q r = Some (d', vic) /\ zVecXDDataToAddrList vic = Some (d'', filter (fun v => Rltb (dist2 v q) r) l).
Proof.
  intros U E Hr. destruct (data_of d l U E) as [W C]. destruct (data_vicinity zVec2DSqrDist d q r W) as (d' & vic & R & _ & WV & CV). rewrite C in CV.
  destruct (to_addr_list vic WV) as (d'' & T & _). exists d', vic, d''. split; [exact R|]. rewrite T, CV. f_equal. f_equal. apply filter_ext. intros v. rewrite sqd2. apply rltb_sqr; auto using dist2_nonneg.
Qed.
Lemma supp3 d l dir : user_data d -> (exists d', zVecXDDataToAddrList d = Some (d', l)) -> l <> [] ->
  exists d' v, zVec3DDataSupportMap d dir = Some (d', Some v) /\ List.In v l /\ forall y, List.In y l -> dot y dir <= dot v dir.
Proof. intros U E NE. destruct (data_of d l U E) as [W C]. destruct (data_support zVec3DInnerProd d dir W ltac:(rewrite C; exact NE)) as (d' & v & R & _ & [V1 V2]). rewrite C in *. exists d', v. auto. Qed.
Lemma supp2 d l dir : user_data d -> (exists d', zVecXDDataToAddrList d = Some (d', l)) -> l <> [] ->
  exists d' v, zVec2DDataSupportMap d dir = Some (d', Some v) /\ List.In v l /\ forall y, List.In y l -> dot2 y dir <= dot2 v dir.
Proof. intros U E NE. destruct (data_of d l U E) as [W C]. destruct (data_support zVec2DInnerProd d dir W ltac:(rewrite C; exact NE)) as (d' & v & R & _ & [V1 V2]). rewrite C in *. exists d', v. auto. Qed.

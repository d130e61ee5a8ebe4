(** Shape sections: computed axes, mirrored shapes, loops, numbers of vertices. *)
From Coq Require Import Ascii String Lra Lia List.
From Verif Require Import Base FactsVec FactsAlg FactsObb SpecZtk ModelZtk FactsZtk.
Import ListNotations.
Open Scope R_scope.

(** ** Computed axes *)
Lemma cross_unit a b : norm a = 1 -> norm b = 1 -> dot a b = 0 -> norm (cross a b) = 1.
Proof.
  intros A B O. apply FactsZtk.norm_unit in A, B. unfold norm. replace (dot (cross a b) (cross a b)) with (dot a a * dot b b - dot a b * dot a b) by (destruct a, b; spec_unfold; ring).
  rewrite A, B, O. replace (1 * 1 - 0 * 0) with 1 by ring. apply sqrt_1.
Qed.
Lemma axis_auto m i0 i1 i2 r : norm (cross (colOf m i1) (colOf m i2)) = 1 -> axisFromZTK m i0 i1 i2 (TWord "auto" :: r) = Some (setCol m i0 (cross (colOf m i1) (colOf m i2))).
Proof. intros H. unfold axisFromZTK. cbn [isAuto]. rewrite String.eqb_refl. change (zVec3DOuterProd (colOf m i1) (colOf m i2)) with (cross (colOf m i1) (colOf m i2)). rewrite renorm by exact H. reflexivity. Qed.
Definition AUTO : list tok := [TWord "auto"].
Lemma ztk_auto a b : norm a = 1 -> norm b = 1 -> dot a b = 0 -> forall sarr on tn,
  let box m := ROk (SH None (Some (ShBox (BX (F3 (V3 0 0 0) m) (V3 0 0 0)))) None None) in
  zShape3DFromZTK sarr on tn [("type", [TWord "box"]); ("ax", zVec3DFPrint a); ("ay", zVec3DFPrint b); ("az", AUTO)]%string = box (of_b a b (cross a b)) /\
  zShape3DFromZTK sarr on tn [("type", [TWord "box"]); ("ay", zVec3DFPrint a); ("az", zVec3DFPrint b); ("ax", AUTO)]%string = box (of_b (cross a b) a b) /\
  zShape3DFromZTK sarr on tn [("type", [TWord "box"]); ("az", zVec3DFPrint a); ("ax", zVec3DFPrint b); ("ay", AUTO)]%string = box (of_b b (cross a b) a) /\
  rotation (of_b a b (cross a b)) /\ rotation (of_b (cross a b) a b) /\ rotation (of_b b (cross a b) a).
Proof.
  intros A B O sarr on tn box.
  assert (BD : forall d, zShape3DFromZTK sarr on tn (("type", [TWord "box"]) :: d)%string = match evalKeys (shapePrp sarr on tn) ["type"]%string (ST (SH None (Some (ShBox (BX zeroF ZVEC3DZERO))) None None) false ZFRAME3DIDENT false) d with
     | ROk s => if simp s then shXform (sshape s) s else match hbody (sshape s) with None => RFail (sshape s) | Some b => match bodyFromZTK b (("type", [TWord "box"]) :: d)%string with RUndef => RUndef | RFail b => RFail (withBody (sshape s) b) | ROk b => shXform (withBody (sshape s) b) s end end
     | RFail s => RFail (sshape s) | RUndef => RUndef end) by reflexivity.
  assert (CU := cross_unit a b A B O).
  assert (R1 : rotation (of_b a b (cross a b)) /\ rotation (of_b (cross a b) a b) /\ rotation (of_b b (cross a b) a)).
  { assert (CU' := FactsZtk.norm_unit _ CU). assert (D1 : dot a (cross a b) = 0) by (destruct a as [? ? ?], b as [? ? ?]; spec_unfold; ring). assert (D2 : dot b (cross a b) = 0) by (destruct a as [? ? ?], b as [? ? ?]; spec_unfold; ring).
    rewrite !rotation_cols. unfold mdet. assert (C : forall p q r : vec3, col0 (of_b p q r) = p /\ col1 (of_b p q r) = q /\ col2 (of_b p q r) = r) by (intros p q r; destruct p, q, r; repeat split).
    repeat match goal with |- context [col0 (of_b ?p ?q ?r)] => destruct (C p q r) as (-> & -> & ->) end.
    assert (DC : forall p q : vec3, dot p q = dot q p) by (intros p q; destruct p, q; spec_unfold; ring).
    assert (T1 : dot a (cross b (cross a b)) = dot (cross a b) (cross a b)) by (destruct a as [? ? ?], b as [? ? ?]; spec_unfold; ring).
    assert (T2 : dot b (cross (cross a b) a) = dot (cross a b) (cross a b)) by (destruct a as [? ? ?], b as [? ? ?]; spec_unfold; ring).
    rewrite ?T1, ?T2, ?(DC b a), ?(DC (cross a b) a), ?(DC (cross a b) b). repeat split; assumption || (rewrite DC; assumption) || lra. }
  split; [|split; [|split; [|exact R1]]].
  - rewrite BD. rewrite skip_all. 2:{ repeat constructor. } cbn [simp sshape hbody bodyFromZTK]. unfold ZTKEvalKey, boxPrp. keys. unfold boxAxis at 1. rewrite axis_read by exact A. keys. unfold boxAxis at 1. rewrite axis_read by exact B. keys.
    unfold boxAxis at 1. unfold AUTO. rewrite axis_auto; [|destruct a, b; exact CU]. destruct a, b. reflexivity.
  - rewrite BD. rewrite skip_all. 2:{ repeat constructor. } cbn [simp sshape hbody bodyFromZTK]. unfold ZTKEvalKey, boxPrp. keys. unfold boxAxis at 1. rewrite axis_read by exact A. keys. unfold boxAxis at 1. rewrite axis_read by exact B. keys.
    unfold boxAxis at 1. unfold AUTO. rewrite axis_auto; [|destruct a, b; exact CU]. destruct a, b. reflexivity.
  - rewrite BD. rewrite skip_all. 2:{ repeat constructor. } cbn [simp sshape hbody bodyFromZTK]. unfold ZTKEvalKey, boxPrp. keys. unfold boxAxis at 1. rewrite axis_read by exact A. keys. unfold boxAxis at 1. rewrite axis_read by exact B. keys.
    unfold boxAxis at 1. unfold AUTO. rewrite axis_auto; [|destruct a, b; exact CU]. destruct a, b. reflexivity.
Qed.
(** before the two others it takes the coordinate axes *)
Lemma ztk_auto_first a b : norm a = 1 -> norm b = 1 -> forall sarr on tn,
  zShape3DFromZTK sarr on tn [("type", [TWord "box"]); ("az", AUTO); ("ax", zVec3DFPrint a); ("ay", zVec3DFPrint b)]%string =
  ROk (SH None (Some (ShBox (BX (F3 (V3 0 0 0) (of_b a b (V3 0 0 1))) (V3 0 0 0)))) None None).
Proof.
  intros A B sarr on tn. unfold zShape3DFromZTK, ZTKEvalKey. unfold shapePrp. keys. cbn [shType ZTKVal onShape rdmap zShape3DQueryAssign String.eqb Ascii.eqb Bool.eqb sshape simp sfrm sxf hname hoptic htex zShape3DInit]. keys.
  assert (CZ : cross (colOf ZMAT3DIDENT 0) (colOf ZMAT3DIDENT 1) = V3 0 0 1) by (unfold ZMAT3DIDENT, cross, colOf, bx, by_; cbn; f_equal; ring).
  cbn [simp sshape hbody bodyFromZTK]. unfold ZTKEvalKey, boxPrp. keys. unfold boxAxis at 1. unfold AUTO. cbn [zBox3DInit bframe fatt fpos bspan]. rewrite axis_auto; rewrite CZ. 2:{ unfold norm. match goal with |- sqrt ?x = _ => replace x with 1 end; [apply sqrt_1|]. unfold dot; cbn. ring. }
  keys. unfold boxAxis at 1. rewrite axis_read by exact A. keys. unfold boxAxis at 1. rewrite axis_read by exact B. destruct a as [? ? ?], b as [? ? ?]. reflexivity.
Qed.

(** ** Mirrored shapes *)
Lemma ztk_mirror l on tn w r i ref b a ax : findName (map hname l) r = Some i -> nth_error l i = Some ref -> hbody ref = Some b -> unused (map hname l) w ->
  (a = "x" /\ ax = 0%nat \/ a = "y" /\ ax = 1%nat \/ a = "z" /\ ax = 2%nat)%string ->
  zShape3DFromZTK (Some l) on tn [("name", [TWord w]); ("mirror", [TWord r; TWord a])]%string =
    match bodyMirror b ax with Some b' => ROk (SH (Some w) (Some b') (hoptic ref) (htex ref)) | None => RUndef end /\
  (forall t, List.In t ["polyhedron"; "box"; "sphere"; "ellipsoid"; "cylinder"; "capsule"; "ellipticcylinder"; "cone"]%string ->
   zShape3DFromZTK (Some l) on tn [("name", [TWord w]); ("type", [TWord t]); ("mirror", [TWord r; TWord a])]%string =
    match bodyMirror b ax with Some b' => ROk (SH None (Some b') (hoptic ref) (htex ref)) | None => RUndef end).
Proof.
  intros F N HB U AX. assert (FN := find_unused _ _ U). assert (XA : zAxisFromStr a = Some ax /\ Nat.ltb 2 ax = false) by (destruct AX as [(-> & ->)|[(-> & ->)|(-> & ->)]]; split; reflexivity). destruct XA as (XA & XL).
  split.
  - unfold zShape3DFromZTK, ZTKEvalKey, shapePrp. keys. unfold shName. cbn [ZTKVal]. unfold onShape, findShape. rewrite FN. cbn [rdmap sshape simp sfrm sxf zShape3DInit hbody hoptic htex]. keys.
    unfold shMirror. cbn [ZTKVal]. unfold findShape. rewrite F, N. unfold zShape3DMirror; cbn [sshape hbody hname hoptic htex]. rewrite XA, XL, HB. destruct (bodyMirror b ax); reflexivity.
  - intros t T. unfold zShape3DFromZTK, ZTKEvalKey, shapePrp. keys. unfold shName. cbn [ZTKVal]. unfold onShape at 1, findShape at 1. rewrite FN. cbn [rdmap sshape simp sfrm sxf zShape3DInit hbody hoptic htex]. keys.
    assert (TQ : exists b0, zShape3DQueryAssign t = ROk b0). { cbn [List.In] in T. repeat (destruct T as [<-|T]; [eexists; reflexivity|]). contradiction. }
    destruct TQ as (b0 & TQ). unfold shType at 1. cbn [ZTKVal]. rewrite TQ. unfold onShape; cbn [rdmap sshape simp sfrm sxf hname hbody hoptic htex]. keys.
    unfold shMirror. cbn [ZTKVal]. unfold findShape. rewrite F, N. unfold zShape3DMirror; cbn [sshape hbody hname hoptic htex]. rewrite XA, XL, HB. destruct (bodyMirror b ax); reflexivity.
Qed.

(** ** Loops *)
Fixpoint flat (l : list (R * R)) : list tok := match l with [] => [] | (x, y) :: l => TNum x :: TNum y :: flat l end.
Lemma loop_flat l : forall fuel, (length (flat l) < fuel)%nat -> loopPts fuel (flat l) = Some (map (fun p => V2 (fst p) (snd p)) l).
Proof.
  induction l as [|(x, y) l IH]; intros fuel H; destruct fuel as [|fuel]; try (cbn in H; lia); [reflexivity|]. cbn [flat loopPts ZTKDouble tok_num]. rewrite IH by (cbn [flat length] in H; lia). reflexivity.
Qed.
Lemma ztk_sweep sarr on tn a h pts v kind create (pl : R * R -> vec3) :
  (a = "x" /\ (forall p, pl p = V3 h (fst p) (snd p)) \/ a = "y" /\ (forall p, pl p = V3 (snd p) h (fst p)) \/ a = "z" /\ (forall p, pl p = V3 (fst p) (snd p) h))%string ->
  (kind = "prism" /\ create = zPH3DCreatePrism \/ kind = "pyramid" /\ create = zPH3DCreatePyramid)%string ->
  zShape3DFromZTK sarr on tn [("type", [TWord "polyhedron"]); ("loop", TWord a :: TNum h :: flat pts); (kind, zVec3DFPrint v)]%string =
  match create (map pl pts) v with
  | Some (Some ph) => ROk (SH None (Some (ShPH ph)) None None)
  | Some None => RFail (SH None (Some (ShPH (PH [] []))) None None)
  | None => RUndef
  end.
Proof.
  intros A K. unfold zShape3DFromZTK, ZTKEvalKey, shapePrp.
  assert (AX : exists ax, zAxisFromStr a = Some ax /\ Nat.ltb 2 ax = false /\ forall p, onPlane ax h (V2 (fst p) (snd p)) = pl p).
  { destruct A as [(-> & E)|[(-> & E)|(-> & E)]]; eexists; (split; [reflexivity|]); (split; [reflexivity|]); intros p; rewrite E; reflexivity. }
  destruct AX as (ax & XA & XL & XP).
  assert (ME : map (onPlane ax h) (map (fun p => V2 (fst p) (snd p)) pts) = map pl pts) by (rewrite map_map; apply map_ext; exact XP).
  destruct K as [(-> & ->)|(-> & ->)]; keys; cbn [shType ZTKVal onShape rdmap zShape3DQueryAssign String.eqb Ascii.eqb Bool.eqb sshape simp sfrm sxf hname hoptic htex zShape3DInit]; keys;
    cbn [simp sshape hbody bodyFromZTK]; unfold zPH3DFromZTK, ZTKCountKey; keys; cbn [Nat.ltb Nat.leb orb]; unfold ZTKEvalKey, phPrp; keys; unfold phLoop; rewrite XA, XL; cbn [ZTKDouble tok_num];
    rewrite loop_flat by lia; rewrite ME; keys; unfold phSweep; cbn [zph pverts pfaces zarr]; rewrite read_vec0;
    match goal with |- context [match ?c (map pl pts) v with _ => _ end] => destruct (c (map pl pts) v) as [[ph|]|] end; reflexivity.
Qed.

(** ** Numbers of vertices *)
Definition fok (n : nat) (f : face) : Prop := (fi0 f < n /\ fi1 f < n /\ fi2 f < n)%nat.
Lemma set_nth_spec {A} (l : list A) : forall i a l', set_nth l i a = Some l' -> (i < length l)%nat /\ l' = firstn i l ++ a :: skipn (Datatypes.S i) l.
Proof.
  induction l as [|x l IH]; intros [|i] a l' H; cbn [set_nth] in H; try discriminate; [injection H as <-; split; [cbn; lia|reflexivity]|].
  destruct (set_nth l i a) as [l0|] eqn:E; [|discriminate]. injection H as <-. destruct (IH _ _ _ E) as (L & ->). split; [cbn; lia|reflexivity].
Qed.
Lemma set_nth_len {A} (l : list A) i a l' : set_nth l i a = Some l' -> length l' = length l.
Proof. intros H. destruct (set_nth_spec _ _ _ _ H) as (L & ->). rewrite app_length, firstn_length. cbn [length]. rewrite skipn_length. lia. Qed.
Lemma ph_inv d : forall seen s s', evalKeys phPrp seen s d = ROk s' -> (forall e, List.In e d -> fst e <> "prism" /\ fst e <> "pyramid")%string ->
  Forall (fok (length (pverts (zph s)))) (firstn (occs "face" seen) (pfaces (zph s))) ->
  length (pverts (zph s')) = length (pverts (zph s)) /\ length (pfaces (zph s')) = length (pfaces (zph s)) /\
  Forall (fok (length (pverts (zph s)))) (firstn (occs "face" seen + ZTKCountKey "face" d) (pfaces (zph s'))).
Proof.
  induction d as [|(k, v) d IH]; intros seen s s' H NS F.
  - cbn in H. injection H as <-. unfold ZTKCountKey; cbn. rewrite Nat.add_0_r. auto.
  - cbn [evalKeys] in H. assert (NS' : forall e, List.In e d -> (fst e <> "prism" /\ fst e <> "pyramid")%string) by (intros e I; apply NS; right; exact I).
    match goal with |- context [ZTKCountKey "face" ?x] => assert (CK : ZTKCountKey "face" x = ((if String.eqb "face" k then 1 else 0) + ZTKCountKey "face" d)%nat) by (unfold ZTKCountKey; cbn [map fst]; apply occs_cons) end.
    destruct (find (fun p => String.eqb (pkey p) k) phPrp) as [p|] eqn:FD.
    + apply find_some in FD. destruct FD as (I & E). apply String.eqb_eq in E. destruct (NS _ (or_introl eq_refl)) as (N1 & N2). cbn [fst] in N1, N2.
      cbn [phPrp List.In] in I. destruct I as [<-|[<-|[<-|[<-|[<-|[]]]]]]; cbn [pkey] in E; subst k; try congruence; cbn [pnum over pev] in H.
      * (* vert *) unfold phVert in H. destruct (zVec3DFromZTK (snd (ZTKInt v))) as [(p, ?)|]; [|discriminate].
        destruct (zarr s) as [|z0 za].
        -- destruct (set_nth (pverts (zph s)) (occs "vert" seen) p) as [vs|] eqn:SN; [|discriminate]. apply set_nth_len in SN.
           specialize (IH _ _ _ H NS'). cbn [zph pverts pfaces] in IH. rewrite occs_cons in IH. cbn [String.eqb Ascii.eqb Bool.eqb] in IH. rewrite SN in IH. specialize (IH F). rewrite CK. cbn [String.eqb Ascii.eqb Bool.eqb]. exact IH.
        -- destruct (set_nth (z0 :: za) (occs "vert" seen) p) as [vs|]; [|discriminate]. specialize (IH _ _ _ H NS'). cbn [zph pverts pfaces] in IH. rewrite occs_cons in IH. cbn [String.eqb Ascii.eqb Bool.eqb] in IH. specialize (IH F). rewrite CK. cbn [String.eqb Ascii.eqb Bool.eqb]. exact IH.
      * (* face *) unfold phFace in H. destruct (ZTKInt v) as (i0, v0). destruct (Z.leb_spec (Z.of_nat (length (pverts (zph s)))) i0); [discriminate|]. destruct (ZTKInt v0) as (i1, v1). destruct (Z.leb_spec (Z.of_nat (length (pverts (zph s)))) i1); [discriminate|].
        destruct (ZTKInt v1) as (i2, v2). destruct (Z.leb_spec (Z.of_nat (length (pverts (zph s)))) i2); [discriminate|].
        destruct (Z.ltb_spec i0 0); [discriminate|]. destruct (Z.ltb_spec i1 0); [discriminate|]. destruct (Z.ltb_spec i2 0); [discriminate|]. cbn [orb] in H.
        destruct (nth_error _ (Z.to_nat i0)) as [q0|]; [|discriminate]. destruct (nth_error _ (Z.to_nat i1)) as [q1|]; [|discriminate]. destruct (nth_error _ (Z.to_nat i2)) as [q2|]; [|discriminate].
        destruct (set_nth _ _ _) as [fs|] eqn:SN; [|discriminate]. pose proof (set_nth_len _ _ _ _ SN) as SL. destruct (set_nth_spec _ _ _ _ SN) as (SI & SE).
        specialize (IH _ _ _ H NS'). cbn [zph pverts pfaces] in IH. rewrite occs_cons in IH. cbn [String.eqb Ascii.eqb Bool.eqb] in IH. rewrite CK. cbn [String.eqb Ascii.eqb Bool.eqb]. rewrite SL in IH.
        replace (occs "face" seen + (1 + ZTKCountKey "face" d))%nat with (1 + occs "face" seen + ZTKCountKey "face" d)%nat by lia. apply IH.
        rewrite SE. replace (1 + occs "face" seen)%nat with (length (firstn (occs "face" seen) (pfaces (zph s))) + 1)%nat by (rewrite firstn_length; lia). rewrite firstn_app_2. cbn [firstn]. apply Forall_app. split; [exact F|]. constructor; [|constructor]. unfold fok; cbn [fi0 fi1 fi2]. lia.
      * (* loop *) specialize (NS' : forall e, List.In e d -> _). destruct (Nat.leb 1 (occs "loop" seen)).
        -- specialize (IH _ _ _ H NS'). rewrite occs_cons in IH. cbn [String.eqb Ascii.eqb Bool.eqb] in IH. rewrite CK. cbn [String.eqb Ascii.eqb Bool.eqb]. exact (IH F).
        -- unfold phLoop in H. destruct v as [|[| |w| |] v]; try discriminate. destruct (zAxisFromStr w) as [ax|]; [|discriminate]. destruct (Nat.ltb 2 ax); [discriminate|]. destruct v as [|t v]; [discriminate|]. destruct (ZTKDouble (t :: v)) as (h, v'). destruct (loopPts _ v') as [l|]; [|discriminate].
           specialize (IH _ _ _ H NS'). cbn [zph] in IH. rewrite occs_cons in IH. cbn [String.eqb Ascii.eqb Bool.eqb] in IH. rewrite CK. cbn [String.eqb Ascii.eqb Bool.eqb]. exact (IH F).
    + specialize (IH _ _ _ H NS'). assert (NF : String.eqb "face" k = false). { destruct (String.eqb_spec "face" k) as [<-|]; [discriminate FD|reflexivity]. } rewrite occs_cons, NF in IH. rewrite CK, NF. exact (IH F).
Qed.
Lemma ztk_ph_valid d ph : zPH3DFromZTK d = ROk ph -> ZTKCountKey "prism" d = 0%nat -> ZTKCountKey "pyramid" d = 0%nat ->
  length (pverts ph) = ZTKCountKey "vert" d /\ length (pfaces ph) = ZTKCountKey "face" d /\
  forall f, List.In f (pfaces ph) -> (fi0 f < length (pverts ph) /\ fi1 f < length (pverts ph) /\ fi2 f < length (pverts ph))%nat.
Proof.
  intros H C1 C2. assert (NS : forall e, List.In e d -> (fst e <> "prism" /\ fst e <> "pyramid")%string).
  { intros e I. assert (G : forall k, ZTKCountKey k d = 0%nat -> fst e <> k). { intros k C E. unfold ZTKCountKey, occs in C. apply length_zero_iff_nil in C. assert (J : List.In (fst e) (filter (String.eqb k) (map fst d))) by (apply filter_In; split; [apply in_map; exact I|apply String.eqb_eq; auto]). rewrite C in J. exact J. } split; apply G; assumption. }
  unfold zPH3DFromZTK in H. destruct d as [|e d]; [discriminate|]. rewrite C1, C2 in H. cbn [Nat.ltb Nat.leb orb] in H.
  destruct (ZTKEvalKey phPrp _ (e :: d)) as [s| |] eqn:E; try discriminate. cbn [rdmap] in H. injection H as <-.
  destruct (ph_inv _ _ _ _ E NS) as (A & B & C); [constructor|]. cbn [zph pverts pfaces] in A, B, C. rewrite repeat_length in A, B. split; [exact A|]. split; [exact B|].
  cbn [occs filter length Nat.add] in C. rewrite firstn_all2 in C by lia. rewrite repeat_length in C. rewrite A. rewrite Forall_forall in C. exact C.
Qed.
(** faces written before the vertices *)
Lemma ztk_faces_first (a b c : vec3) n : corner_normal a b c n -> n <> v3zero ->
  storable (ShPH (PH [a; b; c] [FC 0 1 2 n])) /\
  zPH3DFromZTK [("face", [TInt 0; TInt 1; TInt 2]); ("vert", TInt 0 :: zVec3DFPrint a); ("vert", TInt 1 :: zVec3DFPrint b); ("vert", TInt 2 :: zVec3DFPrint c)]%string = ROk (PH [a; b; c] [FC 0 1 2 v3zero]) /\
  zPH3DFromZTK [("vert", TInt 0 :: zVec3DFPrint a); ("vert", TInt 1 :: zVec3DFPrint b); ("vert", TInt 2 :: zVec3DFPrint c); ("face", [TInt 0; TInt 1; TInt 2])]%string = ROk (PH [a; b; c] [FC 0 1 2 n]).
Proof.
  intros N Z. assert (ST : storable (ShPH (PH [a; b; c] [FC 0 1 2 n]))) by (split; [discriminate|]; repeat constructor; exists a, b, c; auto).
  split; [exact ST|]. split.
  - unfold zPH3DFromZTK, ZTKCountKey; keys. cbn [Nat.ltb Nat.leb orb repeat]. unfold ZTKEvalKey, phPrp. keys.
    unfold phFace at 1. cbn [ZTKInt tok_int zph pverts pfaces length Z.of_nat Pos.of_succ_nat Z.leb Z.compare Pos.succ Pos.compare Pos.compare_cont Z.ltb orb Z.to_nat Pos.to_nat Pos.iter_op nth_error Nat.add set_nth zarr].
    assert (TZ : tnorm (snd (zTri3DCreate vert0 vert0 vert0)) = v3zero). { apply create_corner. left. replace (cross _ _) with v3zero by (unfold vert0, ZVEC3DZERO, v3zero; spec_unfold; f_equal; ring). split; [|reflexivity]. unfold negligible, v3zero; cbn [vx vy vz]. rewrite Rabs_R0. pose proof zTOL_pos. auto. }
    change (Pos.to_nat 1) with 1%nat. change (Pos.to_nat 2) with 2%nat. cbn [nth_error]. rewrite TZ. destruct a as [? ? ?], b as [? ? ?], c as [? ? ?]. reflexivity.
  - pose proof (rt_ph [] (PH [a; b; c] [FC 0 1 2 n]) (fun e I => match I with end) ST) as G. exact G.
Qed.

(** ** Examples *)
Lemma one_not_negl x y z : 1 <= Rabs x \/ 1 <= Rabs y \/ 1 <= Rabs z -> ~ negligible (V3 x y z).
Proof. intros H (A & B & C). cbn [vx vy vz] in *. pose proof zTOL_small. destruct H as [H|[H|H]]; lra. Qed.
Lemma ztk_ex_tri : storable (ShPH (PH [V3 0 0 0; V3 1 0 0; V3 0 1 0] [FC 0 1 2 (V3 0 0 1)])).
Proof.
  split; [discriminate|]. repeat constructor. do 3 eexists. split; [reflexivity|]. split; [reflexivity|]. split; [reflexivity|]. right.
  replace (cross _ _) with (V3 0 0 1) by (spec_unfold; f_equal; ring). split; [apply one_not_negl; right; right; rewrite Rabs_R1; lra|].
  replace (norm (V3 0 0 1)) with 1 by (unfold norm, dot; cbn; symmetry; match goal with |- sqrt ?x = 1 => replace x with 1 by ring end; apply sqrt_1). unfold vscale; cbn [vx vy vz fnrm]. f_equal; field.
Qed.
Lemma ztk_ex_place : exists f, placed (F3 v3zero mid) [("rot", [TNum 0; TNum 0; TNum 2; TNum 90]); ("pos", [TPar [1; 2; 3]]); ("rot", [TNum 3; TNum 0; TNum 0; TNum 180])]%string f /\
  fpos f = V3 1 2 3 /\ fatt f = mmul (rodm (V3 1 0 0) PI) (rodm (V3 0 0 1) (PI / 2)).
Proof.
  assert (N1 : norm (V3 0 0 2) = 2). { unfold norm, dot; cbn. replace (0 * 0 + 0 * 0 + 2 * 2) with (2 * 2) by ring. apply sqrt_square. lra. }
  assert (N2 : norm (V3 3 0 0) = 3). { unfold norm, dot; cbn. replace (3 * 3 + 0 * 0 + 0 * 0) with (3 * 3) by ring. apply sqrt_square. lra. }
  assert (U1 : vscale (1 / norm (V3 0 0 2)) (V3 0 0 2) = V3 0 0 1) by (rewrite N1; spec_unfold; f_equal; field).
  assert (U2 : vscale (1 / norm (V3 3 0 0)) (V3 3 0 0) = V3 1 0 0) by (rewrite N2; spec_unfold; f_equal; field).
  pose proof PI2_1 as P1. assert (A1 : Rabs 2 = 2) by (apply Rabs_right; lra). assert (A2 : Rabs 3 = 3) by (apply Rabs_right; lra).
  eexists. split; [|split].
  - apply pl_rot; [apply one_not_negl; lra|right; rewrite U1; apply one_not_negl; cbn; right; right; replace (90 * PI / 180 * 1) with (PI / 2) by field; rewrite Rabs_right; lra|]. rewrite U1.
    apply pl_pos with (x := 1) (y := 2) (z := 3); [right; reflexivity|]. cbn [fpos fatt].
    apply pl_rot; [apply one_not_negl; lra|right; rewrite U2; apply one_not_negl; cbn; left; replace (180 * PI / 180 * 1) with PI by field; rewrite Rabs_right; lra|]. rewrite U2. apply pl_nil.
  - reflexivity.
  - cbn [fatt fpos]. f_equal; [f_equal; field|]. rewrite mmul_id_r. f_equal. field.
Qed.

(** Proofs about DAE files: meshes, scenes, the polyhedron. *)
From Coq Require Import Ascii String Reals Lra Lia ZArith.
From Verif Require Import Base Spec FactsAlg FactsVec FactsElem FactsMat FactsRot FactsZtk2 FactsPly FactsPly2 FactsDae ModelDae.
From Coq Require Import List Permutation.
Import ListNotations.
Open Scope R_scope.

(** ** Meshes *)
Definition src_rel (s : zDAESrc) (d : dmesh) : Prop :=
  svcount s = length (dm_pts d) /\ sstride s = 3%nat /\ exists ws, scontent s = Some ws /\ Permutation (sacc s) [0; 1; 2]%nat /\
  firstn (3 * length (dm_pts d)) (map wreal ws) = flat_map (fun p => map (vnth p) (sacc s)) (dm_pts d).
Definition mesh_rel (m : zDAEMesh) (d : dmesh) : Prop :=
  mid m = Some (dm_id d) /\ (exists s, mvert m = Some s /\ src_rel s d) /\ Forall2 prim_rel (mplist m) (dm_tris d).
Lemma perm_lt axes : Permutation axes [0; 1; 2]%nat -> Forall (fun a => (a < 3)%nat) axes /\ length axes = 3%nat.
Proof.
  intros P. split; [|rewrite (Permutation_length P); reflexivity]. apply Forall_forall. intros a I. apply (Permutation_in a P) in I. cbn [List.In] in I. lia.
Qed.
Definition withSrc (m : zDAEMesh) (sl : list zDAESrc) : zDAEMesh := MESH sl (mvert m) (mid m) (mvid m) (mplist m) (mframe m).
Definition srcStep (strict : bool) (m : zDAEMesh) (n : xnode) : rd zDAEMesh :=
  if String.eqb (xname n) "source"
  then match zDAESrcEval strict n (mslist m) with
       | ROk sl => ROk (MESH sl (mvert m) (mid m) (mvid m) (mplist m) (mframe m))
       | RFail sl => RFail (MESH sl (mvert m) (mid m) (mvid m) (mplist m) (mframe m))
       | RUndef => RUndef
       end
  else ROk m.
Lemma sources_any strict l : forall m, Forall (fun k => String.eqb (xname k) "source" = true) l -> (forall k, List.In k l -> exists i cs r w, source_doc k i cs r w) -> exists sl, eachNode strict (srcStep strict) m l = ROk (withSrc m (mslist m ++ sl)).
Proof.
  induction l as [|k l IH]; intros m N F; [exists []; cbn; rewrite app_nil_r; destruct m; reflexivity|]. inversion N as [|? ? NK N']; subst. destruct (F k (or_introl eq_refl)) as (i & cs & r & w & D). cbn [eachNode]. unfold srcStep at 1. rewrite NK.
  destruct (source_ok strict k i cs r w (mslist m) D) as (acc & ty & _ & E & _). rewrite E.
  destruct (IH (withSrc m (mslist m ++ [SRC (Some i) (r * length cs) r (length cs) (Some w) acc ty])) N' (fun k I => F k (or_intror I))) as (sl & E2). unfold withSrc in *. cbn [mslist mvert mid mvid mplist mframe] in *. rewrite E2. eexists. rewrite <- app_assoc. reflexivity.
Qed.
Lemma sources_pre strict l src : forall m, Forall (fun k => String.eqb (xname k) "source" = true) l -> (forall k, List.In k l -> exists i cs r w, source_doc k i cs r w /\ i <> src) ->
  exists sl, eachNode strict (srcStep strict) m l = ROk (withSrc m (mslist m ++ sl)) /\ Forall (fun x => exists i, sid x = Some i /\ i <> src) sl.
Proof.
  induction l as [|k l IH]; intros m N F; [exists []; cbn; rewrite app_nil_r; split; [destruct m; reflexivity|constructor]|]. inversion N as [|? ? NK N']; subst. destruct (F k (or_introl eq_refl)) as (i & cs & r & w & D & NE). cbn [eachNode]. unfold srcStep at 1. rewrite NK.
  destruct (source_ok strict k i cs r w (mslist m) D) as (acc & ty & _ & E & _). rewrite E.
  destruct (IH (withSrc m (mslist m ++ [SRC (Some i) (r * length cs) r (length cs) (Some w) acc ty])) N' (fun k I => F k (or_intror I))) as (sl & E2 & FS). unfold withSrc in *. cbn [mslist mvert mid mvid mplist mframe] in *. rewrite E2. eexists. rewrite <- app_assoc. split; [reflexivity|]. constructor; [|exact FS]. exists i. split; [reflexivity|exact NE].
Qed.
Lemma each_app {S} strict (exec : S -> xnode -> rd S) a b : forall s t, eachNode strict exec s a = ROk t -> eachNode strict exec s (a ++ b) = eachNode strict exec t b.
Proof.
  induction a as [|n a IH]; intros s t E; cbn [app eachNode] in *; [inversion E; reflexivity|]. destruct (exec s n) as [u|u|]; [apply IH, E|destruct strict; [discriminate|apply IH, E]|discriminate].
Qed.
Lemma Forall2_snoc {A B} (R : A -> B -> Prop) a b x y : Forall2 R a b -> R x y -> Forall2 R (a ++ [x]) (b ++ [y]).
Proof. intros F H. apply Forall2_app; [exact F|constructor; [exact H|constructor]]. Qed.
Lemma prims_ok strict l vid : forall tss m ps0 ts0, Forall2 (prim_doc vid) (filter (among ["polylist"; "triangles"]%string) l) tss -> mvid m = Some vid -> mplist m = ps0 -> Forall2 prim_rel ps0 ts0 ->
  exists ps, eachNode strict (fun m n => if (String.eqb (xname n) "polylist" || String.eqb (xname n) "triangles")%bool then zDAEPrimitiveEvalFace n m else ROk m) m l = ROk (MESH (mslist m) (mvert m) (mid m) (mvid m) ps (mframe m)) /\ Forall2 prim_rel ps (ts0 ++ tss).
Proof.
  induction l as [|k l IH]; intros tss m ps0 ts0 F V P0 R0.
  - cbn in F. inversion F; subst. exists (mplist m). split; [destruct m; reflexivity|]. rewrite app_nil_r. exact R0.
  - cbn [filter eachNode] in *. rewrite among_2 in F. destruct (String.eqb (xname k) "polylist" || String.eqb (xname k) "triangles")%bool.
    + inversion F as [|? ts ? tss' D F']; subst. destruct (prim_ok vid k ts m D V) as (p & E & R). rewrite E.
      destruct (IH tss' (addPrim m p) (mplist m ++ [p]) (ts0 ++ [ts]) F' V eq_refl (Forall2_snoc _ _ _ _ _ R0 R)) as (ps & E2 & R2). exists ps. split; [exact E2|]. rewrite <- app_assoc in R2. exact R2.
    + apply (IH tss m ps0 ts0); assumption.
Qed.
Lemma geometry_ok strict g d ml : mesh_doc g d -> exists m, zDAEMeshEvalGeometry strict g ml = ROk (ml ++ [m]) /\ mesh_rel m d /\ mframe m = ZFRAME3DIDENT.
Proof.
  intros (ID & mn & pre & sn & post & vn & src & vid & cols & ws & KM & KS & HP & HQ & SD & (axes & PA & FA & TX) & KV & VD & PD).
  unfold zDAEMeshEvalGeometry. rewrite (each_filter strict _ ["mesh"%string]) by (intros s k A; rewrite among_1 in A; rewrite A; reflexivity).
  change (filter (among ["mesh"%string]) (xkids g)) with (kids g ["mesh"%string]). 
  assert (NM : String.eqb (xname mn) "mesh" = true). { rewrite <- among_1. apply (kids_name g). rewrite KM. left. reflexivity. }
  rewrite KM. cbn [eachNode]. rewrite NM. rewrite (has_attr _ _ _ ID). unfold zDAEMeshEval.
  assert (SN : forall k, List.In k (pre ++ sn :: post) -> String.eqb (xname k) "source" = true). { intros k I. rewrite <- among_1. apply (kids_name mn). rewrite KS. exact I. }
  set (m0 := MESH [] None (Some (dm_id d)) None [] ZFRAME3DIDENT).
  assert (E1 : exists sl1 s sl2, eachNode strict (srcStep strict) m0 (xkids mn) = ROk (MESH (sl1 ++ s :: sl2) None (Some (dm_id d)) None [] ZFRAME3DIDENT) /\ Forall (fun x => exists i, sid x = Some i /\ i <> src) sl1 /\ sid s = Some src /\ stype s = DXYZ /\ src_rel s d).
  { rewrite (each_filter strict (srcStep strict) ["source"%string]) by (intros s k A; rewrite among_1 in A; unfold srcStep; rewrite A; reflexivity).
    change (filter (among ["source"%string]) (xkids mn)) with (kids mn ["source"%string]). rewrite KS.
    destruct (sources_pre strict pre src m0) as (sl1 & E & F1); [apply Forall_forall; intros k I; apply SN, in_or_app; left; exact I|exact HP|].
    rewrite (each_app _ _ _ _ _ _ E). cbn [eachNode]. unfold srcStep at 1. rewrite SN by (apply in_or_app; right; left; reflexivity).
    destruct (source_ok strict sn src cols (length (dm_pts d)) ws (mslist (withSrc m0 (mslist m0 ++ sl1))) SD) as (acc & ty & LA & E2 & X). rewrite E2. 
    destruct (perm_lt axes PA) as (LT & L3). assert (LC : length cols = 3%nat). { clear - FA L3. rewrite <- L3. clear L3. induction FA; cbn; congruence. }
    destruct (X axes LC LT FA) as (-> & ->).
    set (s := SRC _ _ _ _ _ _ _).
    match goal with |- context [eachNode strict (srcStep strict) ?q post] => destruct (sources_any strict post q) as (sl2 & E3) end; [apply Forall_forall; intros k I; apply SN, in_or_app; right; right; exact I|exact HQ|].
    rewrite E3. exists sl1, s, sl2. split; [unfold withSrc; cbn [m0 mslist mvert mid mvid mplist mframe app]; rewrite <- app_assoc; reflexivity|]. split; [exact F1|]. split; [reflexivity|]. split; [reflexivity|].
    split; [reflexivity|]. split; [exact LC|]. exists ws. split; [reflexivity|]. split; [exact PA|exact TX]. }
  destruct E1 as (sl1 & s & sl2 & E1 & F1 & SI & ST & SR). unfold srcStep in E1. rewrite E1.
  rewrite (each_filter strict (fun m n => if String.eqb (xname n) "vertices" then zDAESrcEvalVert n m else ROk m) ["vertices"%string]) by (intros q k A; rewrite among_1 in A; rewrite A; reflexivity).
  change (filter (among ["vertices"%string]) (xkids mn)) with (kids mn ["vertices"%string]).
  assert (NV : String.eqb (xname vn) "vertices" = true). { rewrite <- among_1. apply (kids_name mn). rewrite KV. left. reflexivity. }
  rewrite KV. cbn [eachNode]. rewrite NV. rewrite (vert_ok vn _ vid src s VD) by (try (cbn [mslist]; apply src_find; assumption); exact ST). cbn [mslist mvert mid mvid mplist mframe].
  match goal with |- context [eachNode strict _ ?q (xkids mn)] => destruct (prims_ok strict (xkids mn) vid (dm_tris d) q [] [] PD eq_refl eq_refl (Forall2_nil _)) as (ps & E4 & R4) end.
  rewrite E4. eexists. split; [reflexivity|]. split; [|reflexivity]. split; [reflexivity|]. split; [exists s; split; [reflexivity|exact SR]|exact R4].
Qed.
Lemma geometries_ok strict l : forall ms ml0 ms0, Forall2 mesh_doc (filter (among ["geometry"%string]) l) ms -> Forall2 mesh_rel ml0 ms0 -> Forall (fun m => mframe m = ZFRAME3DIDENT) ml0 ->
  exists ml, eachNode strict (fun ml k => if String.eqb (xname k) "geometry" then zDAEMeshEvalGeometry strict k ml else ROk ml) ml0 l = ROk ml /\ Forall2 mesh_rel ml (ms0 ++ ms) /\ Forall (fun m => mframe m = ZFRAME3DIDENT) ml.
Proof.
  induction l as [|k l IH]; intros ms ml0 ms0 F R0 I0.
  - cbn in F. inversion F; subst. exists ml0. rewrite app_nil_r. split; [reflexivity|]. split; assumption.
  - cbn [filter eachNode] in *. rewrite among_1 in F. destruct (String.eqb (xname k) "geometry"); [|apply IH; assumption].
    inversion F as [|? d ? ms' D F']; subst. destruct (geometry_ok strict k d ml0 D) as (m & E & R & I). rewrite E.
    destruct (IH ms' (ml0 ++ [m]) (ms0 ++ [d]) F' (Forall2_snoc _ _ _ _ _ R0 R)) as (ml & E2 & R2 & I2); [apply Forall_app; split; [exact I0|constructor; [exact I|constructor]]|].
    exists ml. rewrite <- app_assoc in R2. split; [exact E2|]. split; assumption.
Qed.

(** ** Scenes *)
Lemma scan_ok ws n (rs : list R) : firstn n (map wreal ws) = rs -> length rs = n -> scan ws n = Some rs.
Proof.
  intros E L. unfold scan. assert (n <= length ws)%nat. { rewrite <- E in L. rewrite firstn_length, map_length in L. lia. }
  destruct (Nat.leb_spec n (length ws)); [|lia]. rewrite <- firstn_map, E. reflexivity.
Qed.
Definition frame_is (f : frame3) (L : vec3 -> vec3) (t : vec3) : Prop := fpos f = t /\ forall p, mvec (fatt f) p = L p.
Lemma xform_is f L t p : frame_is f L t -> zXform3D f p = vadd (L p) t.
Proof. intros (<- & H). rewrite <- H. unfold zXform3D. rewrite zmv_spec. destruct (mvec (fatt f) p), (fpos f). reflexivity. Qed.
Definition placeStep (n : xnode) (f : frame3) : rd frame3 :=
  if String.eqb (xname n) "matrix" then zDAEGetXform n f
  else if String.eqb (xname n) "translate" then zDAEGetTrans n f
  else if String.eqb (xname n) "rotate" then zDAEGetRot n f else zDAEGetScale n f.
Lemma place_ok n o os f L t : place_doc n o -> fair o -> frame_is f L t -> exists f' L' t', placeStep n f = ROk f' /\ frame_is f' L' t' /\ done_from (o :: os) L t = done_from os L' t'.
Proof.
  intros (ws & TX & D) FO (P & A). unfold placeStep. destruct o as [m u|u|a q|k]; destruct D as (-> & E).
  - change (String.eqb "matrix" "matrix") with true. cbv iota. unfold zDAEGetXform. rewrite TX, (scan_ok _ _ _ E eq_refl). unfold mat_rows.
    exists (F3 u (mtr m)), (mvec (mtr m)), u. split; [|split; [split; reflexivity|reflexivity]].
    unfold zVec3DDiv, zMat3DDiv. rewrite (proj2 (Reqb_false 1 0)) by lra. f_equal. f_equal; [unfold zVec3DMul; destruct u; cbn; f_equal; field|destruct m; apply mat3_ext; cbn; field].
  - change (String.eqb "translate" "matrix") with false. change (String.eqb "translate" "translate") with true. cbv iota. unfold zDAEGetTrans. rewrite TX, (scan_ok _ _ _ E eq_refl).
    exists (F3 (vadd t u) (fatt f)), L, (vadd t u). split; [|split; [split; [reflexivity|exact A]|reflexivity]]. rewrite P. destruct u, t; reflexivity.
  - change (String.eqb "rotate" "matrix") with false. change (String.eqb "rotate" "translate") with false. change (String.eqb "rotate" "rotate") with true. cbv iota. unfold zDAEGetRot. rewrite TX, (scan_ok _ _ _ E eq_refl).
    destruct FO as (U & NG). eexists _, (fun p => turn a q (L p)), t. split; [reflexivity|]. split; [|reflexivity]. split; [exact P|]. intros p. cbn [fatt]. unfold zMat3DRot.
    replace (zVec3DMul (V3 (vx a) (vy a) (vz a)) (zDeg2Rad q)) with (vscale (q * PI / 180) a) by (destruct a; reflexivity). rewrite aa_turn by assumption. unfold turn. rewrite <- A, <- rodm_mvec. rewrite zmm_spec. generalize (rodm a (q * PI / 180)) as w. intros w. destruct w, (fatt f), p. spec_unfold. cbn. f_equal; ring.
  - change (String.eqb "scale" "matrix") with false. change (String.eqb "scale" "translate") with false. change (String.eqb "scale" "rotate") with false. cbv iota. unfold zDAEGetScale. rewrite TX, (scan_ok _ _ _ E eq_refl).
    eexists _, (fun p => stretch k (L p)), t. split; [reflexivity|]. split; [|reflexivity]. split; [exact P|]. intros p. cbn [fatt]. rewrite <- A. destruct (fatt f), p, k. unfold stretch. spec_unfold. cbn. f_equal; ring.
Qed.
Definition found (ml : list zDAEMesh) (mesh : option nat) (id : string) : option nat := match zDAEMeshListFind ml id 0 with ROk r => r | _ => mesh end.
Lemma find_ok ml id : Forall (fun m => mid m <> None) ml -> forall k, exists r, zDAEMeshListFind ml id k = ROk r.
Proof. induction 1 as [|m ml H F IH]; intros k; cbn [zDAEMeshListFind]; [exists None; reflexivity|]. destruct (mid m) as [i|]; [|congruence]. destruct (String.eqb i id); [exists (Some k); reflexivity|apply IH]. Qed.
Lemma among_places n : among ["matrix"; "translate"; "rotate"; "scale"]%string n = (String.eqb (xname n) "matrix" || (String.eqb (xname n) "translate" || (String.eqb (xname n) "rotate" || String.eqb (xname n) "scale")))%bool.
Proof. unfold among. cbn [existsb]. rewrite Bool.orb_false_r. reflexivity. Qed.
Lemma xform_nodes strict ml l : Forall (fun m => mid m <> None) ml -> forall os ids f L t mesh,
  Forall2 place_doc (filter (among ["matrix"; "translate"; "rotate"; "scale"]%string) l) os -> Forall fair os -> Forall2 (fun n id => has n "url" (local id)) (filter (among ["instance_geometry"%string]) l) ids -> frame_is f L t ->
  exists f', xformNodes strict l (Some ml) f mesh = ROk (f', fold_left (found ml) ids mesh) /\ forall p, zXform3D f' p = done_from os L t p.
Proof.
  intros NN. induction l as [|n l IH]; intros os ids f L t mesh FO FF FI FR.
  - cbn in FO, FI. inversion FO; inversion FI; subst. exists f. split; [reflexivity|]. intros p. apply xform_is. exact FR.
  - cbn [filter xformNodes] in *. rewrite among_places in FO. rewrite among_1 in FI.
    destruct (String.eqb (xname n) "matrix" || (String.eqb (xname n) "translate" || (String.eqb (xname n) "rotate" || String.eqb (xname n) "scale")))%bool eqn:AP.
    + inversion FO as [|? o ? os' D FO']; subst. inversion FF as [|? ? FO1 FF']; subst. destruct (place_ok n o os' f L t D FO1 FR) as (f1 & L1 & t1 & E1 & R1 & D1).
      assert (NI : String.eqb (xname n) "instance_geometry" = false). { destruct (String.eqb_spec (xname n) "instance_geometry") as [Q|]; [rewrite Q in AP; discriminate|reflexivity]. } rewrite NI in FI.
      destruct (IH os' ids f1 L1 t1 mesh FO' FF' FI R1) as (f' & E2 & X). exists f'. split; [|intros p; rewrite X, D1; reflexivity]. rewrite <- E2. unfold placeStep in E1.
      destruct (String.eqb (xname n) "matrix"); [rewrite E1; reflexivity|]. destruct (String.eqb (xname n) "translate"); [rewrite E1; reflexivity|]. destruct (String.eqb (xname n) "rotate"); [rewrite E1; reflexivity|]. destruct (String.eqb (xname n) "scale"); [rewrite E1; reflexivity|discriminate AP].
    + apply Bool.orb_false_iff in AP. destruct AP as (-> & AP). apply Bool.orb_false_iff in AP. destruct AP as (-> & AP). apply Bool.orb_false_iff in AP. destruct AP as (-> & ->).
      destruct (String.eqb (xname n) "instance_geometry").
      * inversion FI as [|? id ? ids' U FI']; subst. rewrite (has_uri _ _ _ U). destruct (find_ok ml id NN 0) as (r & E). rewrite E. cbn [fold_left]. unfold found at 2. rewrite E. apply (IH os ids' f L t r); assumption.
      * apply IH; assumption.
Qed.
Definition withFrame (m : zDAEMesh) (f : frame3) : zDAEMesh := MESH (mslist m) (mvert m) (mid m) (mvid m) (mplist m) f.
Definition named (m : zDAEMesh) (id : string) : bool := match mid m with Some i => String.eqb i id | None => false end.
Lemma map_none ml id f : (forall m, List.In m ml -> named m id = false) -> map (fun m => if named m id then withFrame m f else m) ml = ml.
Proof. induction ml as [|m ml IH]; intros H; [reflexivity|]. cbn [map]. rewrite (H m (or_introl eq_refl)), IH; [reflexivity|]. intros x X. apply H. right. exact X. Qed.
Lemma set_frame ml id f : Forall (fun m => mid m <> None) ml -> NoDup (map mid ml) -> forall k,
  match zDAEMeshListFind ml id k with
  | ROk None => map (fun m => if named m id then withFrame m f else m) ml = ml
  | ROk (Some j) => exists i, j = (k + i)%nat /\ setFrame ml i f = map (fun m => if named m id then withFrame m f else m) ml
  | _ => False
  end.
Proof.
  induction ml as [|m ml IH]; intros NN ND k; cbn [zDAEMeshListFind map]; [reflexivity|]. inversion NN as [|? ? N1 NN']; subst. cbn [map] in ND. inversion ND as [|? ? NI ND']; subst. destruct (mid m) as [i|] eqn:MI; [|congruence]. unfold named at 1 3. rewrite MI. destruct (String.eqb_spec i id) as [->|NE].
  - exists 0%nat. split; [lia|]. unfold setFrame. cbn [nth_error firstn skipn app]. rewrite MI. rewrite map_none; [unfold withFrame; rewrite MI; reflexivity|]. intros x X. unfold named. destruct (mid x) as [j|] eqn:MX; [|reflexivity]. destruct (String.eqb_spec j id) as [->|]; [|reflexivity]. exfalso. apply NI. rewrite <- MX. apply in_map, X.
  - specialize (IH NN' ND' (Datatypes.S k)). destruct (zDAEMeshListFind ml id (Datatypes.S k)) as [[j|]| |]; [|rewrite IH; reflexivity|contradiction|contradiction].
    destruct IH as (i' & -> & E). exists (Datatypes.S i'). split; [lia|]. rewrite <- E. unfold setFrame. cbn [nth_error]. destruct (nth_error ml i') as [y|]; reflexivity.
Qed.
(** each mesh stands where the last node so far has put it *)
Definition at_place (nodes : list (list place * option string)) (m : zDAEMesh) (d : dmesh) : Prop := mesh_rel m d /\ forall p, zXform3D (mframe m) p = done (last (shown nodes (dm_id d)) []) p.
Lemma rel_ids nodes ml ms : Forall2 (at_place nodes) ml ms -> map mid ml = map (fun d => Some (dm_id d)) ms /\ Forall (fun m => mid m <> None) ml.
Proof. induction 1 as [|m d ml ms ((E & _) & _) F (IH1 & IH2)]; [split; [reflexivity|constructor]|]. cbn [map]. rewrite E, IH1. split; [reflexivity|]. constructor; [rewrite E; discriminate|exact IH2]. Qed.
Lemma nodup_some (l : list dmesh) : NoDup (map dm_id l) -> NoDup (map (fun d => Some (dm_id d)) l).
Proof. intros N. rewrite <- (map_map dm_id Some). apply FinFun.Injective_map_NoDup; [intros a b E; congruence|exact N]. Qed.
Lemma F2_map_l {A B} (R S : A -> B -> Prop) g a b : Forall2 R a b -> (forall x y, R x y -> S (g x) y) -> Forall2 S (map g a) b.
Proof. intros F G. induction F; cbn; constructor; auto. Qed.
Lemma shown_snoc nodes x id : shown (nodes ++ [x]) id = shown nodes id ++ match snd x with Some i => if String.eqb i id then [fst x] else [] | None => [] end.
Proof. unfold shown. rewrite flat_map_app. cbn [flat_map]. rewrite app_nil_r. reflexivity. Qed.
Lemma ident_vec p : mvec (fatt ZFRAME3DIDENT) p = p.
Proof. cbn [fatt ZFRAME3DIDENT]. rewrite zident_spec. apply mvec_id. Qed.
Lemma xform_node strict k x nodes ml ms : node_doc k x -> Forall fair (fst x) -> NoDup (map dm_id ms) -> Forall2 (at_place nodes) ml ms ->
  exists ml', zDAEEvalXform strict (xkids k) (Some ml) = ROk (Some ml') /\ Forall2 (at_place (nodes ++ [x])) ml' ms.
Proof.
  intros (FP & FI) FF ND R. destruct (rel_ids _ _ _ R) as (MI & NN). assert (NM : NoDup (map mid ml)) by (rewrite MI; apply nodup_some, ND).
  assert (ID : frame_is ZFRAME3DIDENT (fun p => p) (V3 0 0 0)). { split; [reflexivity|]. intros p. apply ident_vec. }
  unfold zDAEEvalXform. destruct x as (os & [id|]); cbn [fst snd] in *.
  - destruct FI as (i & KI & U). destruct (xform_nodes strict ml (xkids k) NN os [id] ZFRAME3DIDENT (fun p => p) (V3 0 0 0) None FP FF) as (f & E & X); [|exact ID|].
    { fold (kids k ["instance_geometry"%string]). rewrite KI. constructor; [exact U|constructor]. }
    rewrite E. cbn [fold_left]. unfold found. pose proof (set_frame ml id f NN NM 0) as SF.
    assert (G : Forall2 (at_place (nodes ++ [(os, Some id)])) (map (fun m => if named m id then withFrame m f else m) ml) ms).
    { apply (F2_map_l (at_place nodes)); [exact R|]. intros m d (M & P). unfold named. pose proof M as (Mi & _). rewrite Mi. destruct (String.eqb_spec (dm_id d) id) as [Q|Q].
      - split; [exact M|]. intros p. cbn [mframe withFrame]. rewrite X, shown_snoc. cbn [snd fst]. rewrite Q, String.eqb_refl, last_last. reflexivity.
      - split; [exact M|]. intros p. rewrite P, shown_snoc. cbn [snd fst]. destruct (String.eqb_spec id (dm_id d)); [congruence|]. rewrite app_nil_r. reflexivity. }
    destruct (zDAEMeshListFind ml id 0) as [[j|]| |]; [|exists ml; split; [reflexivity|rewrite <- SF; exact G]|contradiction|contradiction].
    destruct SF as (j' & -> & SF). cbn [plus]. eexists. split; [reflexivity|]. rewrite SF. exact G.
  - destruct (xform_nodes strict ml (xkids k) NN os [] ZFRAME3DIDENT (fun p => p) (V3 0 0 0) None FP FF) as (f & E & X); [|exact ID|]. { fold (kids k ["instance_geometry"%string]). rewrite FI. constructor. }
    rewrite E. cbn [fold_left]. exists ml. split; [reflexivity|]. clear - R. induction R as [|m d ml ms (M & P) F IH]; constructor; [|exact IH]. split; [exact M|]. intros p. rewrite P, shown_snoc. cbn [snd]. rewrite app_nil_r. reflexivity.
Qed.
Lemma scene_ok strict l ms : NoDup (map dm_id ms) -> forall nodes nodes0 ml, Forall2 node_doc (filter (among ["node"%string]) l) nodes -> (forall x, List.In x nodes -> Forall fair (fst x)) -> Forall2 (at_place nodes0) ml ms ->
  exists ml', eachNode strict (fun ml k => if String.eqb (xname k) "node" then zDAEEvalXform strict (xkids k) ml else ROk ml) (Some ml) l = ROk (Some ml') /\ Forall2 (at_place (nodes0 ++ nodes)) ml' ms.
Proof.
  intros ND. induction l as [|k l IH]; intros nodes nodes0 ml F FF R.
  - cbn in F. inversion F; subst. exists ml. rewrite app_nil_r. split; [reflexivity|exact R].
  - cbn [filter eachNode] in *. rewrite among_1 in F. destruct (String.eqb (xname k) "node"); [|apply IH; assumption].
    inversion F as [|? x ? nodes' D F']; subst. destruct (xform_node strict k x nodes0 ml ms D (FF x (or_introl eq_refl)) ND R) as (ml1 & E & R1). rewrite E.
    destruct (IH nodes' (nodes0 ++ [x]) ml1 F' (fun y Y => FF y (or_intror Y)) R1) as (ml' & E2 & R2). exists ml'. rewrite <- app_assoc in R2. split; assumption.
Qed.
Lemma eval_ok strict root ms nodes : dae_doc root ms nodes -> (forall x, List.In x nodes -> Forall fair (fst x)) -> exists ml, zDAEEval strict root = ROk (Some ml) /\ Forall2 (at_place nodes) ml ms.
Proof.
  intros (NR & ND & NE & lg & rest & K & NG & MD & H) FF. unfold zDAEEval. rewrite NR. change (String.eqb "COLLADA" "COLLADA") with true. cbv iota.
  rewrite (each_filter strict _ ["library_geometries"; "library_visual_scenes"]%string) by (intros s k A; rewrite among_2 in A; apply Bool.orb_false_iff in A; destruct A as (-> & ->); reflexivity).
  change (filter (among ["library_geometries"%string; "library_visual_scenes"%string]) (xkids root)) with (kids root ["library_geometries"; "library_visual_scenes"]%string). rewrite K. cbn [eachNode]. rewrite NG. change (String.eqb "library_geometries" "library_geometries") with true. cbv iota.
  unfold zDAEEvalLibraryGeometries. destruct (geometries_ok strict (xkids lg) ms [] [] MD (Forall2_nil _) (Forall_nil _)) as (ml & E & R & FI). rewrite E. cbn [app] in R.
  assert (R0 : Forall2 (at_place []) ml ms).
  { clear - R FI. induction R as [|m d ml ms M F IH]; constructor; [|inversion FI; subst; apply IH; assumption]. inversion FI as [|? ? F1 F2]; subst. split; [exact M|]. intros p. rewrite F1. unfold zXform3D. rewrite zmv_spec, ident_vec. reflexivity. }
  destruct H as [(-> & ->)|(lv & sc & -> & NV & SC & FN)]; cbn [eachNode].
  - exists ml. split; [|exact R0]. destruct R; [congruence|reflexivity].
  - rewrite NV. change (String.eqb "library_visual_scenes" "library_geometries") with false. change (String.eqb "library_visual_scenes" "library_visual_scenes") with true. cbv iota. unfold zDAEEvalLibraryVisualScenes. rewrite find_filter. fold (kids lv ["visual_scene"%string]). rewrite SC.
    destruct (scene_ok strict (xkids sc) ms ND nodes [] ml FN FF R0) as (ml' & E2 & R2). rewrite E2. exists ml'. split; [|exact R2]. destruct R2; [congruence|reflexivity].
Qed.

(** Textures, files of several shapes, copies. *)
From Coq Require Import Ascii String Lra Lia List.
From Verif Require Import Base FactsVec FactsObb FactsOptic SpecZtk ModelZtk FactsZtk.
Import ListNotations.
Open Scope R_scope.

(** ** Textures *)
Definition cline (iv : nat * vec2) : entry := ("coord"%string, TInt (Z.of_nat (fst iv)) :: zVec2DFPrint (snd iv)).
Definition xline (f : nat * nat * nat) : entry := ("face"%string, [TInt (Z.of_nat (fst (fst f))); TInt (Z.of_nat (snd (fst f))); TInt (Z.of_nat (snd f))]).
Lemma rt_coords nm fl bp fs dp ws : forall vs seen d, occs "coord" seen = length vs ->
  evalKeys texPrp seen (TX nm fl bp (vs ++ repeat (V2 0 0) (length ws)) fs dp) (map cline (combine (seq (length vs) (length ws)) ws) ++ d) =
  evalKeys texPrp (repeat "coord"%string (length ws) ++ seen) (TX nm fl bp (vs ++ ws) fs dp) d.
Proof.
  induction ws as [|w ws IH]; intros vs seen d H; [reflexivity|]. cbn [length repeat seq combine map app]. unfold cline at 1; cbn [fst snd].
  cbn [evalKeys]. replace (find (fun p => String.eqb (pkey p) "coord") texPrp) with (Some (PRP "coord"%string None txCoord)) by reflexivity. cbn [pnum over pev].
  unfold txCoord at 1. cbn [ZTKInt snd]. replace (zVec2DFromZTK (zVec2DFPrint w)) with (Some (w, zVec2DFPrint w)) by (destruct w; reflexivity). cbn [xname xfile xbump xcoord xface xdepth]. rewrite H, set_nth_app.
  replace (vs ++ w :: repeat (V2 0 0) (length ws)) with ((vs ++ [w]) ++ repeat (V2 0 0) (length ws)) by (rewrite <- app_assoc; reflexivity).
  replace (Datatypes.S (length vs)) with (length (vs ++ [w])) by (rewrite app_length; cbn; lia). rewrite IH.
  - rewrite <- app_assoc. cbn [app]. apply seen_irrel. intros k _. rewrite ?occs_app, ?occs_cons, ?occs_app, ?occs_cons. lia.
  - rewrite occs_cons, H, app_length. cbn. lia.
Qed.
Lemma rt_txfaces nm fl bp vs dp gs : forall fs seen d, occs "face" seen = length fs ->
  Forall (fun f => let n := length vs in fst (fst f) < n /\ snd (fst f) < n /\ snd f < n)%nat gs ->
  evalKeys texPrp seen (TX nm fl bp vs (fs ++ repeat (0, 0, 0)%nat (length gs)) dp) (map xline gs ++ d) =
  evalKeys texPrp (repeat "face"%string (length gs) ++ seen) (TX nm fl bp vs (fs ++ gs) dp) d.
Proof.
  induction gs as [|g gs IH]; intros fs seen d H F; [reflexivity|]. inversion F as [|? ? (La & Lb & Lc) F' Eq]; subst. cbn [length repeat map app]. unfold xline at 1.
  cbn [evalKeys]. replace (find (fun p => String.eqb (pkey p) "face") texPrp) with (Some (PRP "face"%string None txFace)) by reflexivity. cbn [pnum over pev].
  unfold txFace at 1. cbn [ZTKInt tok_int xname xfile xbump xcoord xface xdepth]. rewrite !of_nat_lt by assumption.
  replace (Z.ltb (Z.of_nat (fst (fst g))) 0 || Z.ltb (Z.of_nat (snd (fst g))) 0 || Z.ltb (Z.of_nat (snd g)) 0)%bool with false by (symmetry; rewrite !Bool.orb_false_iff, !Z.ltb_ge; lia).
  rewrite !Nat2Z.id, H. replace (fst (fst g), snd (fst g), snd g) with g by (destruct g as ((?, ?), ?); reflexivity). rewrite set_nth_app.
  replace (fs ++ g :: repeat (0, 0, 0)%nat (length gs)) with ((fs ++ [g]) ++ repeat (0, 0, 0)%nat (length gs)) by (rewrite <- app_assoc; reflexivity). rewrite IH.
  - rewrite <- app_assoc. cbn [app]. apply seen_irrel. intros k _. rewrite ?occs_app, ?occs_cons, ?occs_app, ?occs_cons. lia.
  - rewrite occs_cons, H, app_length. cbn. lia.
  - exact F'.
Qed.
Lemma cline_keys l n : map fst (map cline (combine (seq n (length l)) l)) = repeat "coord"%string (length l).
Proof. revert n. induction l as [|v l IH]; intros n; [reflexivity|]. cbn. rewrite IH. reflexivity. Qed.
Lemma xline_keys l : map fst (map xline l) = repeat "face"%string (length l).
Proof. induction l as [|v l IH]; [reflexivity|]. cbn. rewrite IH. reflexivity. Qed.
Definition thead (w f : string) (bp : bool) (dp : R) : sect :=
  [("name", [TWord w]); ("file", [TWord f]); ("type", [TWord (if bp then "bump" else "color")])]%string ++ (if bp then [("depth"%string, [TNum dp])] else []).
Lemma tex_print t f : xfile t = Some f -> zTextureFPrintZTK t = Some (thead (zName (xname t)) f (xbump t) (xdepth t) ++ map cline (combine (seq 0 (length (xcoord t))) (xcoord t)) ++ map xline (xface t)).
Proof. intros E. unfold zTextureFPrintZTK, thead. rewrite E. reflexivity. Qed.
Lemma tex_counts w f bp dp cs fs : let d := thead w f bp dp ++ map cline (combine (seq 0 (length cs)) cs) ++ map xline fs in
  ZTKCountKey "coord" d = length cs /\ ZTKCountKey "face" d = length fs.
Proof.
  intros d. unfold d, ZTKCountKey. rewrite !map_app, cline_keys, xline_keys, !occs_app, !occs_const. destruct bp; split; cbn [thead app map fst occs filter String.eqb Ascii.eqb Bool.eqb length]; lia.
Qed.
Lemma ztk_texture t : texture_ok t -> exists d, zTextureFPrintZTK t = Some d /\ zTextureFromZTK d = ROk t.
Proof.
  destruct t as [nm fl bp cs fs dp]. intros ((w & Ew) & (f & Ef) & NC & FV & DP). cbn [xname xfile xbump xcoord xface xdepth] in *. subst nm fl.
  rewrite (tex_print _ f) by reflexivity. cbn [xname xfile xbump xcoord xface xdepth zName]. eexists. split; [reflexivity|].
  unfold zTextureFromZTK. destruct (tex_counts w f bp dp cs fs) as (-> & ->). destruct cs as [|c0 cs0] eqn:EC; [congruence|]. rewrite <- EC in *. replace (Nat.eqb (length cs) 0) with false by (rewrite EC; reflexivity).
  unfold ZTKEvalKey.
  assert (HD : evalKeys texPrp [] (TX None None false (repeat (V2 0 0) (length cs)) (repeat (0, 0, 0)%nat (length fs)) 1) (thead w f bp dp) = ROk (TX (Some w) (Some f) bp (repeat (V2 0 0) (length cs)) (repeat (0, 0, 0)%nat (length fs)) dp)).
  { unfold thead, texPrp. destruct bp; cbn [app]; keys; cbn [txName txFile txType ZTKVal xname xfile xbump xcoord xface xdepth]; keys.
    - cbn [txName txFile txType ZTKVal xname xfile xbump xcoord xface xdepth String.eqb Ascii.eqb Bool.eqb]. keys. unfold txDepth, num1. cbn [ZTKDouble fst tok_num xname xfile xbump xcoord xface xdepth]. destruct (Req_EM_T dp 0); [contradiction|]. reflexivity.
    - cbn [txName txFile txType ZTKVal xname xfile xbump xcoord xface xdepth String.eqb Ascii.eqb Bool.eqb]. rewrite DP. reflexivity. }
  rewrite eval_app, HD.
  pose proof (rt_coords (Some w) (Some f) bp (repeat (0, 0, 0)%nat (length fs)) dp cs [] (rev (map fst (thead w f bp dp)) ++ []) (map xline fs)) as G1. cbn [app length] in G1.
  rewrite G1. 2:{ destruct bp; reflexivity. }
  pose proof (rt_txfaces (Some w) (Some f) bp cs dp fs [] (repeat "coord"%string (length cs) ++ rev (map fst (thead w f bp dp)) ++ []) []) as G2. cbn [app length] in G2. rewrite (app_nil_r (map xline fs)) in G2. rewrite G2; [reflexivity| |exact FV].
  rewrite occs_app, occs_const. destruct bp; reflexivity.
Qed.
(** a bump map of depth 0 is written and refused *)
Lemma ztk_bump0 t f : xfile t = Some f -> xbump t = true -> xdepth t = 0 -> xcoord t <> [] -> exists d t', zTextureFPrintZTK t = Some d /\ zTextureFromZTK d = RFail t'.
Proof.
  destruct t as [nm fl bp cs fs dp]. cbn [xfile xbump xdepth xcoord]. intros -> -> -> NC. rewrite (tex_print _ f) by reflexivity. cbn [xname xfile xbump xcoord xface xdepth]. do 2 eexists. split; [reflexivity|].
  unfold zTextureFromZTK. destruct (tex_counts (zName nm) f true 0 cs fs) as (-> & ->). replace (Nat.eqb (length cs) 0) with false by (destruct cs; [congruence|reflexivity]).
  unfold ZTKEvalKey, texPrp, thead. cbn [app]. keys. cbn [txName txFile txType ZTKVal xname xfile xbump xcoord xface xdepth]. keys.
  cbn [txName txFile txType ZTKVal xname xfile xbump xcoord xface xdepth String.eqb Ascii.eqb Bool.eqb]. keys. unfold txDepth, num1. cbn [ZTKDouble fst tok_num xname xfile xbump xcoord xface xdepth]. destruct (Req_EM_T 0 0); [reflexivity|congruence].
Qed.
(** a copy has the arrays but not what is in them *)
Lemma ztk_texture_clone t : (xface t = [] -> zTextureClone t = None) /\
  forall t', zTextureClone t = Some t' -> xname t' = xname t /\ xfile t' = xfile t /\ xbump t' = xbump t /\ xdepth t' = 1 /\
    length (xcoord t') = length (xcoord t) /\ length (xface t') = length (xface t) /\
    (forall c, List.In c (xcoord t') -> c = V2 0 0) /\ (forall f, List.In f (xface t') -> f = (0, 0, 0)%nat).
Proof.
  destruct t as [nm fl bp cs fs dp]. unfold zTextureClone; cbn [xname xfile xbump xcoord xface xdepth]. split.
  - intros ->. destruct fl, cs; reflexivity.
  - intros t' H. destruct fl as [f|]; [|discriminate]. destruct cs as [|c0 cs]; [discriminate|]. destruct fs as [|f0 fs]; [discriminate|]. apply (f_equal (fun o => match o with Some x => x | None => t' end)) in H. cbv beta iota in H. rewrite <- H. cbn [xname xfile xbump xcoord xface xdepth].
    do 4 (split; [reflexivity|]). split; [apply repeat_length|]. split; [apply repeat_length|]. split; intros c I; apply (repeat_spec _ _ _ I).
Qed.

(** ** Files of several shapes *)
Section Multi4.
Variable scan : list ascii -> option (R * R * R).
Lemma optic_back o : optic_ok o -> exists z, opticPrint o = SecOptic z /\ zOpticalInfoFromZTK scan z = Some o.
Proof.
  intros ((w & E) & H1 & H2 & H3). unfold opticPrint. rewrite E. eexists. split; [reflexivity|]. destruct (optic_print_read scan o w) as (o' & -> & A & B & C & D & _ & _ & _ & K1 & K2 & K3).
  f_equal. destruct o as [nm a d s e sh al], o' as [nm' a' d' s' e' sh' al']. cbn [oname ambient diffuse specular esr shininess alpha] in *. rewrite A, B, C, D, (K1 H1), (K2 H2), (K3 H3), E. reflexivity.
Qed.
Lemma tags_optic os : Forall optic_ok os -> forall done T H it is_ rest,
  evalTags scan (MS (done ++ repeat optic0 (length os)) T H) (length done) it is_ (map opticPrint os ++ rest) = evalTags scan (MS (done ++ os) T H) (length done + length os) it is_ rest.
Proof.
  induction 1 as [|o os OK _ IH]; intros done T H it is_ rest; [cbn; rewrite Nat.add_0_r; reflexivity|].
  destruct (optic_back o OK) as (z & E & Rd). cbn [map app length repeat]. rewrite E. cbn [evalTags secFromZTK]. rewrite Rd. cbn [moptic mtex mshp]. rewrite set_nth_app.
  replace (done ++ o :: repeat optic0 (length os)) with ((done ++ [o]) ++ repeat optic0 (length os)) by (rewrite <- app_assoc; reflexivity).
  replace (Datatypes.S (length done)) with (length (done ++ [o])) by (rewrite app_length; cbn; lia). rewrite IH. rewrite <- app_assoc, app_length. cbn [app length]. f_equal. lia.
Qed.
Lemma tags_tex ts : Forall texture_ok ts -> exists ds, mapM zTextureFPrintZTK ts = Some ds /\ length ds = length ts /\ forall done O H io is_ rest,
  evalTags scan (MS O (done ++ repeat zTextureInit (length ts)) H) io (length done) is_ (map SecTex ds ++ rest) = evalTags scan (MS O (done ++ ts) H) io (length done + length ts) is_ rest.
Proof.
  induction 1 as [|t ts OK _ IH]; [exists []; split; [reflexivity|]; split; [reflexivity|]; intros; cbn; rewrite Nat.add_0_r; reflexivity|].
  destruct IH as (ds & M & L & IH). destruct (ztk_texture t OK) as (d & P & Rd). exists (d :: ds). split; [cbn [mapM]; rewrite P, M; reflexivity|]. split; [cbn; lia|]. intros done O H io is_ rest.
  cbn [map app length repeat evalTags secFromZTK]. rewrite Rd. cbn [moptic mtex mshp]. rewrite set_nth_app.
  replace (done ++ t :: repeat zTextureInit (length ts)) with ((done ++ [t]) ++ repeat zTextureInit (length ts)) by (rewrite <- app_assoc; reflexivity).
  replace (Datatypes.S (length done)) with (length (done ++ [t])) by (rewrite app_length; cbn; lia). rewrite IH. rewrite <- app_assoc, app_length. cbn [app length]. f_equal. lia.
Qed.
Lemma tags_shape O T hs : Forall (shape_ok (MS O T hs)) hs -> NoDup (map hname hs) -> exists ds, mapM (zShape3DFPrintZTK (Some (map onameS O)) (Some (map xname T))) hs = Some ds /\ length ds = length hs /\
  evalTags scan (MS O T (repeat zShape3DInit (length hs))) (length O) (length T) 0 (map SecShape ds) = ROk (MS O T hs).
Proof.
  intros OK ND.
  assert (G : forall ts done, Forall (shape_ok (MS O T hs)) (done ++ ts) -> NoDup (map hname (done ++ ts)) -> exists ds, mapM (zShape3DFPrintZTK (Some (map onameS O)) (Some (map xname T))) ts = Some ds /\ length ds = length ts /\
    forall io it, evalTags scan (MS O T (done ++ repeat zShape3DInit (length ts))) io it (length done) (map SecShape ds) = ROk (MS O T (done ++ ts))).
  { clear OK ND. induction ts as [|h ts IH]; intros done OK ND; [exists []; split; [reflexivity|]; split; [reflexivity|]; intros; reflexivity|].
    replace (done ++ h :: ts) with ((done ++ [h]) ++ ts) in * by (rewrite <- app_assoc; reflexivity). destruct (IH (done ++ [h]) OK ND) as (ds & M & L & E).
    assert (OH : shape_ok (MS O T hs) h). { rewrite Forall_forall in OK. apply OK. apply in_or_app. left. apply in_or_app. right. left. reflexivity. }
    destruct OH as ((w & HN & NN) & (b & HB & SB) & AO & AT). cbn [moptic mtex] in AO, AT.
    assert (UN : unused (map hname (done ++ zShape3DInit :: repeat zShape3DInit (length ts))) w).
    { intros n I Z. rewrite map_app in I. apply in_app_or in I. destruct I as [I|I].
      - rewrite !map_app in ND. rewrite <- app_assoc in ND. cbn [map app] in ND. apply NoDup_remove_2 in ND. apply ND. apply in_or_app. left. rewrite HN.
        assert (n = Some w); [|congruence]. apply in_map_iff in I. destruct I as (x & <- & I). rewrite Forall_forall in OK. destruct (OK x) as ((w' & HN' & _) & _); [apply in_or_app; left; apply in_or_app; left; exact I|]. rewrite HN' in Z |- *. cbn in Z. congruence.
      - assert (n = None). { change (zShape3DInit :: repeat zShape3DInit (length ts)) with (repeat zShape3DInit (Datatypes.S (length ts))) in I. apply in_map_iff in I. destruct I as (x & <- & I). apply repeat_spec in I. subst x. reflexivity. } subst n. cbn in Z. apply NN. symmetry. exact Z. }
    destruct (ztk_roundtrip (Some (done ++ zShape3DInit :: repeat zShape3DInit (length ts))) (map onameS O) (map xname T) w b (hoptic h) (htex h) UN AO AT SB) as (d & P & Rd).
    assert (HH : SH (Some w) (Some b) (hoptic h) (htex h) = h) by (destruct h; cbn in *; subst; reflexivity). rewrite HH in P, Rd.
    exists (d :: ds). split; [cbn [mapM]; rewrite P, M; reflexivity|]. split; [cbn; lia|]. intros io it. cbn [map length repeat evalTags secFromZTK mshp moptic mtex]. rewrite !set_nth_app, Rd. rewrite set_nth_app.
    replace (done ++ h :: repeat zShape3DInit (length ts)) with ((done ++ [h]) ++ repeat zShape3DInit (length ts)) by (rewrite <- app_assoc; reflexivity).
    replace (Datatypes.S (length done)) with (length (done ++ [h])) by (rewrite app_length; cbn; lia). rewrite E. rewrite <- app_assoc. reflexivity. }
  destruct (G hs [] OK ND) as (ds & M & L & E). exists ds. split; [exact M|]. split; [exact L|]. apply E.
Qed.
Lemma kinds os ds hs : let doc := map opticPrint os ++ map SecTex ds ++ map SecShape hs in
  length (filter isOptic doc) = length os /\ length (filter isTex doc) = length ds /\ length (filter isShape doc) = length hs.
Proof.
  intros doc. unfold doc. rewrite !filter_app, !app_length.
  assert (A : forall f, (forall z, f (SecOptic z) = false) -> length (filter f (map opticPrint os)) = 0%nat) by (intros f F; induction os as [|o l IH]; [reflexivity|]; cbn [map filter]; unfold opticPrint at 1; rewrite F; exact IH).
  assert (B : forall f, (forall z, f (SecTex z) = false) -> length (filter f (map SecTex ds)) = 0%nat) by (intros f F; clear A; induction ds as [|o l IH]; [reflexivity|]; cbn [map filter]; rewrite F; exact IH).
  assert (C : forall f, (forall z, f (SecShape z) = false) -> length (filter f (map SecShape hs)) = 0%nat) by (intros f F; clear A B; induction hs as [|o l IH]; [reflexivity|]; cbn [map filter]; rewrite F; exact IH).
  assert (A' : length (filter isOptic (map opticPrint os)) = length os) by (clear; induction os as [|o l IH]; [reflexivity|]; cbn [map filter]; unfold opticPrint at 1; cbn [isOptic length]; rewrite IH; reflexivity).
  assert (B' : length (filter isTex (map SecTex ds)) = length ds) by (clear; induction ds as [|o l IH]; [reflexivity|]; cbn [map filter isTex length]; rewrite IH; reflexivity).
  assert (C' : length (filter isShape (map SecShape hs)) = length hs) by (clear; induction hs as [|o l IH]; [reflexivity|]; cbn [map filter isShape length]; rewrite IH; reflexivity).
  rewrite A', B', C', !A, !B, !C by reflexivity. lia.
Qed.
Lemma ztk_multi m : mshp m <> [] -> Forall optic_ok (moptic m) -> Forall texture_ok (mtex m) -> Forall (shape_ok m) (mshp m) -> NoDup (map hname (mshp m)) ->
  exists doc, zMultiShape3DFPrintZTK m = Some doc /\ zMultiShape3DFromZTK scan doc = ROk m.
Proof.
  destruct m as [O T hs]. cbn [moptic mtex mshp]. intros NE HO HT HH ND. unfold zMultiShape3DFPrintZTK; cbn [moptic mtex mshp].
  destruct (tags_tex T HT) as (ds & M1 & L1 & E1). destruct (tags_shape O T hs HH ND) as (es & M2 & L2 & E2). rewrite M1, M2. eexists. split; [reflexivity|].
  unfold zMultiShape3DFromZTK, ms0. destruct (kinds O ds es) as (-> & -> & ->). replace (Nat.eqb (length es) 0) with false by (rewrite L2; destruct hs; [congruence|reflexivity]).
  pose proof (tags_optic O HO [] (repeat zTextureInit (length ds)) (repeat zShape3DInit (length es)) 0 0 (map SecTex ds ++ map SecShape es)) as G1. cbn [app length Nat.add] in G1. rewrite G1.
  rewrite L1. specialize (E1 [] O (repeat zShape3DInit (length es)) (length O) 0%nat (map SecShape es)). cbn [app length Nat.add] in E1. rewrite E1, L2, E2. reflexivity.
Qed.
(** a failure is not reported, and everything after it is lost *)
Lemma ztk_multi_dup w b es : w <> NONAME -> storable b ->
  exists d, zShape3DFPrintZTK (Some []) (Some []) (SH (Some w) (Some b) None None) = Some d /\
    zMultiShape3DFromZTK scan (SecShape d :: SecShape d :: map SecShape es) = ROk (MS [] [] (SH (Some w) (Some b) None None :: repeat (SH None None None None) (Datatypes.S (length es)))).
Proof.
  intros NN SB. set (h := SH (Some w) (Some b) None None).
  assert (K : forall (l : list section), length (filter isOptic (map SecShape es)) = 0%nat /\ length (filter isTex (map SecShape es)) = 0%nat /\ length (filter isShape (map SecShape es)) = length es).
  { intros _. clear. induction es as [|e es (A & B & C)]; [auto|]. cbn [map filter isOptic isTex isShape length]. rewrite A, B, C. auto. }
  destruct (K []) as (K1 & K2 & K3).
  assert (UN : unused (map hname (zShape3DInit :: repeat zShape3DInit (Datatypes.S (length es)))) w).
  { intros n I Z. change (zShape3DInit :: repeat zShape3DInit (Datatypes.S (length es))) with (repeat zShape3DInit (Datatypes.S (Datatypes.S (length es)))) in I. apply in_map_iff in I. destruct I as (x & <- & I). apply repeat_spec in I. subst x. cbn in Z. congruence. }
  destruct (ztk_roundtrip (Some (zShape3DInit :: repeat zShape3DInit (Datatypes.S (length es)))) [] [] w b None None UN Logic.I Logic.I SB) as (d & P & Rd). exists d. split; [exact P|].
  unfold zMultiShape3DFromZTK, ms0. cbn [filter isOptic isTex isShape length]. rewrite K1, K2, K3. cbn [Nat.eqb repeat]. cbn [evalTags secFromZTK mshp moptic mtex set_nth map].
  cbn [repeat] in Rd. rewrite Rd. cbn [mshp moptic mtex set_nth map].
  assert (F2 : zShape3DFromZTK (Some (h :: zShape3DInit :: repeat zShape3DInit (length es))) (Some []) (Some []) d = RFail zShape3DInit).
  { unfold zShape3DFPrintZTK in P; cbn [hbody hname hoptic htex zName refName] in P. injection P as <-. unfold zShape3DFromZTK, ZTKEvalKey, shapePrp. cbn [app]. keys. unfold shName at 1. cbn [ZTKVal]. unfold onShape at 1, findShape. unfold h at 1. cbn [map hname findName zName]. rewrite String.eqb_refl. reflexivity. }
  unfold h in F2. rewrite F2. reflexivity.
Qed.
End Multi4.

(** ** Copies *)
Lemma clone_body b : storable b -> sized b -> bodyClone b = Some b.
Proof.
  destruct b as [b|s|e|c|c|c|c|p]; cbn [storable sized bodyClone].
  - destruct b as [[q m] [x y z]]. unfold unit3; cbn [bframe fatt bspan vx vy vz]. intros (U0 & U1 & U2) (X & Y & Z). unfold zBox3DCopy, zBox3DCreate.
    assert (NZ : forall v, norm v = 1 -> zVec3DIsTiny v = false /\ snd (zVec3DNormalizeNC v) = v).
    { intros v U. pose proof (FactsZtk.norm_unit v U) as D. split; [exact (unit_not_tiny v D)|]. pose proof (renorm v U) as RN. unfold zVec3DNormalizeDRC, zVec3DNormalize in RN. rewrite (unit_not_tiny v D) in RN. exact RN. }
    destruct (NZ _ U0) as (T0 & V0). destruct (NZ _ U1) as (T1 & V1). destruct (NZ _ U2) as (T2 & V2).
    unfold zBox3DAxis, zBox3DCenter; cbn [bframe fatt fpos bspan vx vy vz].
    change (col0 m) with (V3 (cxx m) (cxy m) (cxz m)); change (col1 m) with (V3 (cyx m) (cyy m) (cyz m)); change (col2 m) with (V3 (czx m) (czy m) (czz m)).
    rewrite T0, T1, T2, V0, V1, V2. cbn [orb option_map]. rewrite !Rabs_right by lra. destruct m; reflexivity.
  - intros P _. destruct s as [c r n]; unfold zSphere3DCopy, zSphere3DCreate; cbn [scen srad sdiv] in *. destruct (Z.eqb_spec n 0); [lia|reflexivity].
  - destruct e as [[x y z] [q m] n]; cbn [elf fatt fpos elrad eldiv vx vy vz]. intros (_ & P) (X & Y & Z). unfold zEllips3DCopy, zEllips3DCreate; cbn [elf fatt fpos elrad eldiv vx vy vz]. rewrite !Rabs_right by lra. destruct (Z.eqb_spec n 0); [lia|]. destruct m; reflexivity.
  - intros P _. destruct c as [p q r n]; unfold zCyl3DCopy, zCyl3DCreate; cbn [cc0 cc1 crad cdiv] in *. destruct (Z.eqb_spec n 0); [lia|reflexivity].
  - intros _ _. reflexivity.
  - intros P _. destruct c as [p q r n]; unfold zCyl3DCopy, zCyl3DCreate; cbn [cc0 cc1 crad cdiv] in *. destruct (Z.eqb_spec n 0); [lia|reflexivity].
  - intros _ _. destruct c; reflexivity.
  - intros (_ & F) _. unfold zPH3DClone, with_faces. assert (M : mapM (faceCalcNorm (pverts p)) (pfaces p) = Some (pfaces p)).
    { induction F as [|f l (a & b & c & Ea & Eb & Ec & N) _ IH]; [reflexivity|]. cbn [mapM]. rewrite IH. unfold faceCalcNorm, zPH3DFaceTri; cbn [pverts]. rewrite Ea, Eb, Ec. unfold zTri3DCalcNorm; cbn [tv0 tv1 tv2]. rewrite (create_corner _ _ _ _ N). destruct f; reflexivity. }
    rewrite M. destruct p; reflexivity.
Qed.
Lemma mapM_ok {A B} (g : A -> option B) (f : A -> B) l : (forall a, List.In a l -> g a = Some (f a)) -> mapM g l = Some (map f l).
Proof. induction l as [|a l IH]; intros H; [reflexivity|]. cbn [mapM map]. rewrite (H a) by (left; reflexivity). rewrite IH; [reflexivity|]. intros x I. apply H. right. exact I. Qed.
(** shapes with optical properties and no textures are copied *)
Lemma ztk_clone m : mtex m = [] -> (forall o, List.In o (moptic m) -> exists w, oname o = Some w) ->
  (forall h, List.In h (mshp m) -> exists w b i, h = SH (Some w) (Some b) (Some i) None /\ storable b /\ sized b) ->
  exists c, zMultiShape3DClone m = Some (Some c) /\ coptics c = moptic m /\ ctexs c = [] /\
    map (fun x => (csname x, csbody x, csoptic x, cstex x)) (cshapes c) = map (fun h => (hname h, hbody h, (InCopy, match hoptic h with Some i => i | None => 0%nat end), None)) (mshp m).
Proof.
  intros NT HO HS. unfold zMultiShape3DClone. rewrite NT. cbn [mapM].
  rewrite (mapM_ok _ (fun h => CS (hname h) (hbody h) (InCopy, match hoptic h with Some i => i | None => 0%nat end) None)).
  - eexists. split; [reflexivity|]. cbn [coptics ctexs cshapes]. split; [|split; [reflexivity|]].
    + rewrite <- (map_id (moptic m)) at 2. apply map_ext_in. intros o I. destruct (HO o I) as (w & E). unfold zOpticalInfoClone. rewrite E. destruct o; cbn in *; subst; reflexivity.
    + rewrite map_map. reflexivity.
  - intros h I. destruct (HS h I) as (w & b & i & -> & SB & SZ). cbn [hoptic hname hbody]. unfold zShape3DClone. cbn [hbody hname htex zName option_map]. rewrite (clone_body b SB SZ). reflexivity.
Qed.
(** a shape without an optical property makes it undefined; textures stay those of the original *)
Lemma mapM_nth {A B} (g : A -> option B) l l' : mapM g l = Some l' -> forall i a b, nth_error l i = Some a -> nth_error l' i = Some b -> g a = Some b.
Proof.
  revert l'. induction l as [|x l IH]; intros l' H i a b EA EB; [destruct i; discriminate|]. cbn [mapM] in H. destruct (g x) as [y|] eqn:G; [|discriminate]. destruct (mapM g l) as [ys|]; [|discriminate]. injection H as <-.
  destruct i as [|i]; [injection EA as <-; injection EB as <-; exact G|]. exact (IH ys eq_refl i a b EA EB).
Qed.
Lemma mapM_none {A B} (g : A -> option B) l a : List.In a l -> g a = None -> mapM g l = None.
Proof. induction l as [|x l IH]; intros I G; [destruct I|]. cbn [mapM]. destruct I as [->|I]; [rewrite G; reflexivity|]. rewrite (IH I G). destruct (g x); reflexivity. Qed.
Lemma ztk_clone_bad m :
  (forall h, List.In h (mshp m) -> hoptic h = None -> forall c, zMultiShape3DClone m <> Some (Some c)) /\
  (forall t, List.In t (mtex m) -> xface t = [] -> zMultiShape3DClone m = Some None) /\
  (forall c, zMultiShape3DClone m = Some (Some c) -> forall k h x, nth_error (mshp m) k = Some h -> nth_error (cshapes c) k = Some x -> cstex x = option_map (fun i => (InOriginal, i)) (htex h)).
Proof.
  unfold zMultiShape3DClone. split; [|split].
  - intros h I E c. destruct (mapM zTextureClone (mtex m)); [|discriminate]. rewrite (mapM_none _ _ h I) by (rewrite E; reflexivity). discriminate.
  - intros t I E. rewrite (mapM_none _ _ t I) by (apply (ztk_texture_clone t); exact E). reflexivity.
  - intros c H k h x A B. destruct (mapM zTextureClone (mtex m)); [|discriminate]. destruct (mapM _ (mshp m)) as [hs|] eqn:M; [|discriminate]. injection H as <-. cbn [cshapes] in B.
    pose proof (mapM_nth _ _ _ M k h x A B) as E. cbn beta in E. destruct (hoptic h); [|discriminate]. unfold zShape3DClone in E. destruct (hbody h) as [b|]; [|discriminate]. destruct (bodyClone b); [|discriminate]. injection E as <-. reflexivity.
Qed.
Lemma ztk_multi_rt scan m : mshp m <> [] -> Forall optic_ok (moptic m) -> Forall texture_ok (mtex m) -> Forall (shape_ok m) (mshp m) -> NoDup (map hname (mshp m)) ->
  exists doc, zMultiShape3DFPrintZTK m = Some doc /\ zMultiShape3DFromZTK scan doc = ROk m.
Proof. exact (ztk_multi scan m). Qed.
Lemma ztk_multi_lost scan w b es : w <> NONAME -> storable b ->
  exists d, zShape3DFPrintZTK (Some []) (Some []) (SH (Some w) (Some b) None None) = Some d /\
    zMultiShape3DFromZTK scan (SecShape d :: SecShape d :: map SecShape es) = ROk (MS [] [] (SH (Some w) (Some b) None None :: repeat (SH None None None None) (Datatypes.S (length es)))).
Proof. exact (ztk_multi_dup scan w b es). Qed.

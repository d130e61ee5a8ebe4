(** Proofs about files of elevation maps: refusals, order of the lines, nets. *)
From Coq Require Import Ascii String Lra Lia List ZArith.
From Verif Require Import Base FactsVec SpecZtk ModelZtk FactsZtk SpecMap ModelMap FactsTerra FactsTerra2 FactsTerra3 FactsMap.
Import ListNotations.
Open Scope R_scope.

(** ** Refusals *)
Lemma map_outside : forall d1 d2 t i j r, zTerraFromZTK d1 = ROk t -> ~ ((0 <= i < nx t)%Z /\ (0 <= j < ny t)%Z) ->
  zTerraFromZTK (d1 ++ ("grid"%string, TInt i :: TInt j :: r) :: d2) = RFail t.
Proof.
  intros d1 d2 t i j r H N. unfold zTerraFromZTK, ZTKEvalKey in *. rewrite eval_app, H. cbn [evalKeys].
  replace (find (fun p => String.eqb (pkey p) "grid") terraPrp) with (Some (PRP "grid"%string None trGrid)) by reflexivity. cbn [pnum over pev].
  unfold trGrid. cbn [ZTKInt tok_int]. unfold zTerraGrid. destruct (valid t i j) eqn:V; [|reflexivity]. apply valid_iff in V. tauto.
Qed.
Lemma not_seen k (d : sect) : ~ List.In k (map fst d) -> occs k (rev (map fst d) ++ []) = 0%nat.
Proof.
  intros N. rewrite app_nil_r. unfold occs. replace (filter (String.eqb k) (rev (map fst d))) with (@nil string); [reflexivity|]. symmetry.
  assert (G : forall l, ~ List.In k l -> filter (String.eqb k) l = []).
  { induction l as [|x l IH]; intros M; [reflexivity|]. cbn [filter]. destruct (String.eqb_spec k x) as [E|E]; [exfalso; apply M; left; congruence|]. apply IH. intros I. apply M. right. exact I. }
  apply G. rewrite <- in_rev. exact N.
Qed.
Lemma map_coarse : forall d1 d2 t dx dy, zTerraFromZTK d1 = ROk t -> ~ List.In "resolution"%string (map fst d1) -> Rabs dx < zTOL \/ Rabs dy < zTOL ->
  exists t', zTerraFromZTK (d1 ++ ("resolution"%string, [TNum dx; TNum dy]) :: d2) = RFail t'.
Proof.
  intros d1 d2 t dx dy H N T. unfold zTerraFromZTK, ZTKEvalKey in *. rewrite eval_app, H. cbn [evalKeys].
  replace (find (fun p => String.eqb (pkey p) "resolution") terraPrp) with (Some (PRP "resolution"%string (Some 1%nat) trResol)) by reflexivity. cbn [pnum over pev]. rewrite not_seen by exact N. cbn [Nat.leb].
  unfold trResol. cbn [ZTKDouble tok_num]. replace (zIsTiny dx || zIsTiny dy)%bool with true; [eexists; reflexivity|]. symmetry. apply Bool.orb_true_iff. rewrite !zIsTiny_true. exact T.
Qed.
Lemma map_nosize : forall d1 d2 t xs ys, zTerraFromZTK d1 = ROk t -> ~ List.In "size"%string (map fst d1) -> xs = 0%Z \/ ys = 0%Z ->
  zTerraFromZTK (d1 ++ ("size"%string, [TInt xs; TInt ys]) :: d2) = RFail t.
Proof.
  intros d1 d2 t xs ys H N T. unfold zTerraFromZTK, ZTKEvalKey in *. rewrite eval_app, H. cbn [evalKeys].
  replace (find (fun p => String.eqb (pkey p) "size") terraPrp) with (Some (PRP "size"%string (Some 1%nat) trSize)) by reflexivity. cbn [pnum over pev]. rewrite not_seen by exact N. cbn [Nat.leb].
  unfold trSize. cbn [ZTKInt tok_int]. unfold zTerraAlloc. replace ((xs =? 0) || (ys =? 0))%Z with true; [reflexivity|]. symmetry. apply Bool.orb_true_iff. rewrite !Z.eqb_eq. exact T.
Qed.
Lemma map_refused : forall d1 d2 t, zTerraFromZTK d1 = ROk t ->
  (forall i j r, ~ ((0 <= i < nx t)%Z /\ (0 <= j < ny t)%Z) -> zTerraFromZTK (d1 ++ ("grid"%string, TInt i :: TInt j :: r) :: d2) = RFail t) /\
  (forall dx dy, ~ List.In "resolution"%string (map fst d1) -> Rabs dx < zTOL \/ Rabs dy < zTOL -> exists t', zTerraFromZTK (d1 ++ ("resolution"%string, [TNum dx; TNum dy]) :: d2) = RFail t') /\
  (forall xs ys, ~ List.In "size"%string (map fst d1) -> xs = 0%Z \/ ys = 0%Z -> zTerraFromZTK (d1 ++ ("size"%string, [TInt xs; TInt ys]) :: d2) = RFail t).
Proof.
  intros d1 d2 t H. split; [|split].
  - intros i j r. apply map_outside. exact H.
  - intros dx dy N T. apply (map_coarse d1 d2 t dx dy H N T).
  - intros xs ys N T. apply map_nosize; assumption.
Qed.
(** ** The size before the region *)
Lemma map_order : forall x0 y0 dx dy xs ys, zTOL <= Rabs dx -> zTOL <= Rabs dy -> (0 < xs)%Z -> (0 < ys)%Z ->
  exists t t', zTerraFromZTK [("origin", [TNum x0; TNum y0]); ("resolution", [TNum dx; TNum dy]); ("size", [TInt xs; TInt ys])]%string = ROk t /\
    zTerraFromZTK [("size", [TInt xs; TInt ys]); ("origin", [TNum x0; TNum y0]); ("resolution", [TNum dx; TNum dy])]%string = ROk t' /\
    xmax t = x0 + IZR (xs - 1) * dx /\ ymax t = y0 + IZR (ys - 1) * dy /\ xmax t' = 0 /\ ymax t' = 0 /\
    (forall i, zTerraX t' i = zTerraX t i) /\ (forall j, zTerraY t' j = zTerraY t j).
Proof.
  intros x0 y0 dx dy xs ys DX DY HX HY. unfold zTerraFromZTK, ZTKEvalKey, terraPrp, zTerraInit. do 2 eexists. split; [|split].
  - keys. rewrite st_origin. keys. rewrite st_resol by assumption. keys. rewrite st_size by assumption. reflexivity.
  - keys. rewrite st_size by assumption. keys. rewrite st_origin. keys. rewrite st_resol by assumption. reflexivity.
  - unfold zTerraX, zTerraY. cbn [xmax ymax xmin ymin tdx tdy]. repeat split; lra.
Qed.
(** ** Learning goes on from nothing *)
Lemma run_fresh l : forall c c0, tprm c = tprm c0 -> tS c = tS c0 -> tnp c = tnp c0 -> match cell_run c l, cell_run c0 l with
  | Some d, Some d0 => tprm d = tprm d0 /\ tS d = tS d0 /\ tnp d = tnp d0 | None, None => True | _, _ => False end.
Proof.
  induction l as [|p l IH]; intros c c0 E1 E2 E3; cbn [cell_run]; [tauto|]. unfold zTerraCellUpdate, zTerraCellResidual, zTerraCellZ. rewrite E1, E2, E3.
  destruct (zVec3DDiv _ _) as [qd|]; [|exact Logic.I]. apply IH; reflexivity.
Qed.
Lemma map_forgets : forall t d t' i j c l, map_ok t -> zTerraFPrintZTK t = Some d -> zTerraFromZTK d = ROk t' -> zTerraGrid t' i j = Some c ->
  exists c', cell_run c l = Some c' /\ fits l (tprm c') /\ tnp c' = length l.
Proof.
  intros t d t' i j c l OK P Rd G. destruct (map_round t OK) as (d1 & t1 & P1 & R1 & SM & FR). rewrite P in P1. injection P1 as <-. rewrite Rd in R1. injection R1 as <-.
  destruct (FR i j c G) as (F1 & F2 & F3). pose proof (run_fresh l c zTerraCellInit F1 F2 F3) as H. destruct (terra_cell l) as (c0 & E & FT & NP & _). rewrite E in H.
  destruct (cell_run c l) as [c'|]; [|destruct H]. exists c'. destruct H as (H1 & _ & H3). split; [reflexivity|]. rewrite H1, H3. split; assumption.
Qed.

(** ** Maps *)
Definition same_zmap (m m' : zmap) : Prop := mpname m' = mpname m /\ exists t t', mpbody m = Some t /\ mpbody m' = Some t' /\ same_map t t' /\ all_fresh t'.
Definition zmap_ok (m : zmap) : Prop := (exists w, mpname m = Some w) /\ exists t, mpbody m = Some t /\ map_ok t.
Lemma skip_unknown {A} (tbl : list (prp A)) d : forall seen s, Forall (fun e => find (fun p => String.eqb (pkey p) (fst e)) tbl = None) d -> evalKeys tbl seen s d = ROk s.
Proof. induction d as [|(k, v) d IH]; intros seen s F; [reflexivity|]. inversion F as [|? ? E F']; subst. cbn [evalKeys]. cbn [fst] in E. rewrite E. apply IH. exact F'. Qed.
Lemma lines_keys t d : zTerraFPrintZTK t = Some d -> Forall (fun e => find (fun p => String.eqb (pkey p) (fst e)) mapPrp = None) d.
Proof.
  unfold zTerraFPrintZTK. destruct (_ || _)%bool; [discriminate|]. intros H. injection H as <-. repeat (constructor; [reflexivity|]). apply Forall_forall. intros e I. apply in_flat_map in I. destruct I as (i & _ & I). apply in_map_iff in I. destruct I as (j & <- & _). reflexivity.
Qed.
Lemma map_section : forall m, zmap_ok m -> exists d m', zMapFPrintZTK m = Some d /\ zMapFromZTK d = ROk m' /\ same_zmap m m'.
Proof.
  intros [nm bd] ((w & E) & t & B & OK). cbn [mpname mpbody] in *. subst nm bd. destruct (map_round t OK) as (d & t' & P & Rd & SM & FR).
  unfold zMapFPrintZTK. cbn [mpbody mpname zName]. rewrite P. eexists. exists (MP (Some w) (Some t')). split; [reflexivity|]. split.
  - unfold zMapFromZTK, ZTKEvalKey. cbn [app]. unfold mapPrp at 1. keys. cbn [mapName mapType ZTKVal mpname mpbody zMapInit]. keys. cbn [mapName mapType ZTKVal mpname mpbody String.eqb Ascii.eqb Bool.eqb].
    rewrite (skip_unknown mapPrp) by (apply (lines_keys t); exact P). cbn [mpbody mpname].
    assert (E : zTerraFromZTK (("name"%string, [TWord w]) :: ("type"%string, [TWord "terra"]) :: d) = ROk t'); [|rewrite E; reflexivity].
    unfold zTerraFromZTK, ZTKEvalKey in *. rewrite <- Rd. cbn [evalKeys]. replace (find (fun p => String.eqb (pkey p) "name") terraPrp) with (@None (prp terra)) by reflexivity. replace (find (fun p => String.eqb (pkey p) "type") terraPrp) with (@None (prp terra)) by reflexivity.
    apply seen_irrel. intros k K. rewrite !occs_cons. destruct (String.eqb_spec k "type") as [->|_]; [discriminate|]. destruct (String.eqb_spec k "name") as [->|_]; [discriminate|]. reflexivity.
  - unfold same_zmap. cbn [mpname mpbody]. split; [reflexivity|]. exists t, t'. split; [reflexivity|]. split; [reflexivity|]. split; assumption.
Qed.
Lemma type_missing d : forall seen m, ~ List.In "type"%string (map fst d) -> mpbody m = None -> match evalKeys mapPrp seen m d with ROk m' => mpbody m' = None | _ => True end.
Proof.
  induction d as [|(k, v) d IH]; intros seen m N B; [exact B|]. cbn [map fst] in N. cbn [evalKeys].
  destruct (find (fun p => String.eqb (pkey p) k) mapPrp) as [p|] eqn:F; [|apply IH; [intros I; apply N; right; exact I|exact B]].
  destruct (over (pnum p) (occs k seen)); [apply IH; [intros I; apply N; right; exact I|exact B]|].
  assert (E : p = PRP "name"%string (Some 1%nat) mapName).
  { unfold mapPrp in F. cbn [find pkey] in F. destruct (String.eqb "name" k); [congruence|]. destruct (String.eqb_spec "type" k) as [X|X]; [exfalso; apply N; left; congruence|discriminate]. }
  subst p. cbn [pev]. unfold mapName. destruct (ZTKVal v); [|exact Logic.I]. apply IH; [intros I; apply N; right; exact I|exact B].
Qed.
Lemma map_untyped : forall d, (~ List.In "type"%string (map fst d) -> forall m, zMapFromZTK d <> ROk m) /\
  (forall w v, w <> "terra"%string -> zMapFromZTK (("type"%string, TWord w :: v) :: d) = RFail (MP None None)).
Proof.
  intros d. split.
  - intros N m. unfold zMapFromZTK, ZTKEvalKey. pose proof (type_missing d [] zMapInit N eq_refl) as H. destruct (evalKeys mapPrp [] zMapInit d) as [m'|m'|]; try discriminate. rewrite H. discriminate.
  - intros w v N. unfold zMapFromZTK, ZTKEvalKey, mapPrp. keys. unfold mapType. cbn [ZTKVal]. destruct (String.eqb_spec "terra" w); [congruence|]. reflexivity.
Qed.

(** ** Nets *)
Lemma net_reads ds : forall ms rest done, Forall2 (fun d m => zMapFromZTK d = ROk m) ds ms -> forall n,
  evalMaps (done ++ repeat zMapInit (length ds + n)) (length done) (map Some ds ++ rest) = evalMaps (done ++ ms ++ repeat zMapInit n) (length done + length ds) rest.
Proof.
  induction ds as [|d ds IH]; intros ms rest done F n.
  - inversion F; subst. cbn. rewrite Nat.add_0_r. reflexivity.
  - inversion F as [|? m ? ms' E F']; subst. cbn [length map app repeat Nat.add evalMaps]. rewrite E, set_nth_app.
    replace (done ++ m :: repeat zMapInit (length ds + n)) with ((done ++ [m]) ++ repeat zMapInit (length ds + n)) by (rewrite <- app_assoc; reflexivity).
    replace (Datatypes.S (length done)) with (length (done ++ [m])) by (rewrite app_length; cbn; lia). rewrite (IH ms' rest (done ++ [m]) F' n). rewrite <- app_assoc, app_length. cbn [app length]. f_equal. lia.
Qed.
Lemma all_maps ds : length (filter isMap (map Some ds)) = length ds.
Proof. induction ds as [|d ds IH]; [reflexivity|]. cbn. rewrite IH. reflexivity. Qed.
Lemma net_round : forall ms, ms <> [] -> Forall zmap_ok ms -> exists doc ms', zMapNetFPrintZTK ms = Some doc /\ zMapNetFromZTK doc = ROk ms' /\ Forall2 same_zmap ms ms'.
Proof.
  intros ms NE F. assert (G : exists ds ms', mapM zMapFPrintZTK ms = Some ds /\ length ds = length ms /\ Forall2 (fun d m => zMapFromZTK d = ROk m) ds ms' /\ Forall2 same_zmap ms ms').
  { clear NE. induction F as [|m ms OK _ (ds & ms' & M & L & A & B)]; [exists [], []; repeat split; constructor|]. destruct (map_section m OK) as (d & m' & P & Rd & SM). exists (d :: ds), (m' :: ms'). cbn [mapM]. rewrite P, M. split; [reflexivity|]. split; [cbn; lia|]. split; constructor; assumption. }
  destruct G as (ds & ms' & M & L & A & B). unfold zMapNetFPrintZTK. rewrite M. exists (map Some ds), ms'. split; [reflexivity|]. split; [|exact B].
  unfold zMapNetFromZTK. rewrite all_maps. replace (Nat.eqb (length ds) 0) with false by (rewrite L; destruct ms; [congruence|reflexivity]).
  pose proof (net_reads ds ms' [] [] A 0) as H. cbn [app length] in H. rewrite Nat.add_0_r, !app_nil_r in H. rewrite H. reflexivity.
Qed.
Lemma net_lost : forall ds ms d m ds2, Forall2 (fun d m => zMapFromZTK d = ROk m) ds ms -> zMapFromZTK d = RFail m ->
  zMapNetFromZTK (map Some (ds ++ d :: ds2)) = ROk (ms ++ m :: repeat (MP None None) (length ds2)).
Proof.
  intros ds ms d m ds2 F E. assert (L : length ms = length ds) by (clear E; induction F; cbn; lia). unfold zMapNetFromZTK. rewrite all_maps, app_length. cbn [length]. replace (Nat.eqb (length ds + Datatypes.S (length ds2)) 0) with false by (symmetry; apply Nat.eqb_neq; lia).
  rewrite map_app. pose proof (net_reads ds ms (map Some (d :: ds2)) [] F (Datatypes.S (length ds2))) as H. cbn [app length Nat.add] in H. rewrite H. cbn [map evalMaps]. rewrite E. cbn [repeat]. rewrite <- L, set_nth_app. reflexivity.
Qed.
Lemma net_empty : forall doc, (forall d, ~ List.In (Some d) doc) -> zMapNetFromZTK doc = RFail [].
Proof.
  intros doc N. unfold zMapNetFromZTK. replace (filter isMap doc) with (@nil (option sect)); [reflexivity|]. symmetry. induction doc as [|[d|] doc IH]; [reflexivity|exfalso; apply (N d); left; reflexivity|]. cbn. apply IH. intros d I. apply (N d). right. exact I.
Qed.
Lemma map_accepted : forall d m, zMapFromZTK d = ROk m -> exists t, zTerraFromZTK d = ROk t /\ mpbody m = Some t.
Proof.
  intros d m H. unfold zMapFromZTK in H. destruct (ZTKEvalKey mapPrp zMapInit d) as [m0|m0|]; try discriminate. destruct (mpbody m0); [|discriminate].
  destruct (zTerraFromZTK d) as [t'|t'|]; try discriminate. exists t'. split; [reflexivity|]. inversion H; subst. reflexivity.
Qed.

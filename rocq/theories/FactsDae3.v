(** Proofs about DAE files: the polyhedron; the meaning of placements; files that are not read. *)
From Coq Require Import Ascii String Reals Lra Lia ZArith.
From Verif Require Import Base Spec FactsAlg FactsVec FactsElem FactsMat FactsRot FactsZtk2 FactsPly FactsPly2 FactsDae FactsDae2 SpecPly ModelStl ModelDae.
From Coq Require Import List Permutation.
Import ListNotations.
Open Scope R_scope.

(** ** Vertices *)
Lemma perm_cases axes : Permutation axes [0; 1; 2]%nat -> List.In axes [[0;1;2];[0;2;1];[1;0;2];[1;2;0];[2;0;1];[2;1;0]]%nat.
Proof.
  intros P. pose proof (Permutation_length P) as L. destruct axes as [|a [|b [|c [|]]]]; try discriminate L. clear L.
  assert (N : NoDup [a; b; c]) by (apply (Permutation_NoDup (Permutation_sym P)); repeat constructor; cbn; intuition discriminate).
  assert (H : forall x, List.In x [a; b; c] -> (x = 0 \/ x = 1 \/ x = 2)%nat) by (intros x I; apply (Permutation_in x P) in I; cbn in I; intuition).
  pose proof (H a ltac:(cbn; auto)) as HA. pose proof (H b ltac:(cbn; auto)) as HB. pose proof (H c ltac:(cbn; auto)) as HC. inversion N as [|? ? N1 N2]; subst. inversion N2 as [|? ? N3 N4]; subst. cbn [List.In] in N1, N3.
  destruct HA as [->|[->| ->]], HB as [->|[->| ->]], HC as [->|[->| ->]]; try (exfalso; apply N1; auto; fail); try (exfalso; apply N3; auto; fail); cbn; tauto.
Qed.
Lemma read_vert axes w0 w1 w2 ws p junk : Permutation axes [0; 1; 2]%nat -> [wreal w0; wreal w1; wreal w2] = map (vnth p) axes -> readVert 0 3 axes (w0 :: w1 :: w2 :: ws) junk = Some (p, ws).
Proof.
  intros P E. apply perm_cases in P. cbn [List.In] in P. destruct P as [<-|[<-|[<-|[<-|[<-|[<-|[]]]]]]]; injection E as A B C; cbn [readVert nth_error hd tl]; rewrite A, B, C; destruct p, junk; reflexivity.
Qed.
Lemma read_verts s f junk pts : sstride s = 3%nat -> Permutation (sacc s) [0; 1; 2]%nat -> forall ws, firstn (3 * length pts) (map wreal ws) = flat_map (fun p => map (vnth p) (sacc s)) pts ->
  readVerts (length pts) s f junk ws = Some (map (zXform3D f) pts).
Proof.
  intros S P. induction pts as [|p pts IH]; intros ws E; [reflexivity|]. cbn [length readVerts map flat_map] in *. rewrite S.
  pose proof (perm_lt _ P) as (_ & L3). replace (3 * Datatypes.S (length pts))%nat with (3 + 3 * length pts)%nat in E by lia.
  destruct ws as [|w0 [|w1 [|w2 ws]]].
  1-3: exfalso; apply (f_equal (@length R)) in E; rewrite app_length, map_length, L3 in E; rewrite firstn_length in E; cbn in E; lia.
  cbn [map plus firstn] in E. destruct (sacc s) as [|a [|b [|c [|]]]] eqn:EA; try discriminate L3. cbn [map app] in E. injection E as A B C E.
  rewrite (read_vert [a; b; c] w0 w1 w2 ws p junk P) by (cbn [map]; rewrite A, B, C; reflexivity). rewrite IH by exact E. reflexivity.
Qed.
Lemma all_verts nodes junk ml ms : Forall2 (at_place nodes) ml ms -> allVerts junk ml = Some (flat_map (placed nodes) ms).
Proof.
  induction 1 as [|m d ml ms ((_ & (s & V & (SC & SS & ws & C & P & T)) & _) & X) F IH]; [reflexivity|]. cbn [allVerts flat_map]. unfold meshVerts. rewrite V, C, SC, (read_verts s _ junk (dm_pts d) SS P ws T), IH. unfold placed. rewrite (map_ext _ _ X). reflexivity.
Qed.
(** ** Faces *)
Definition shift (k : nat) (t : nat * nat * nat) : nat * nat * nat := let '(a, b, c) := t in (k + a, k + b, k + c)%nat.
Definition inside (n : nat) (t : nat * nat * nat) : Prop := let '(i, j, k) := t in (i < n)%nat /\ (j < n)%nat /\ (k < n)%nat.
Lemma nth_skip {A} n k (l : list A) d : nth k (skipn n l) d = nth (n + k) l d.
Proof. revert l. induction n as [|n IH]; intros l; [reflexivity|]. destruct l as [|a l]; [destruct k; reflexivity|]. cbn [skipn plus nth]. apply IH. Qed.
Lemma corner_skip sp ni vo i j : corner_word (skipn (3 * ni) sp) ni vo i j = corner_word sp ni vo (Datatypes.S i) j.
Proof. unfold corner_word. rewrite nth_skip. do 2 f_equal. lia. Qed.
Lemma prim_faces p vs vo ts : (pvoffset p < pni p)%nat -> forall vp sp,
  match vp with None => True | Some cs => forall i, (i < length ts)%nat -> wint (nth i cs wnone) = 3%Z end ->
  (forall i t, nth_error ts i = Some t -> tri_words sp (pni p) (pvoffset p) i t) -> (forall t, List.In t ts -> inside (length vs) (shift vo t)) ->
  primFaces (length ts) p vs vo vp sp = Some (map (fun t => Some (tri_face vs (shift vo t))) ts).
Proof.
  intros LT. induction ts as [|t ts IH]; intros vp sp VC TW IN; [reflexivity|]. cbn [length primFaces map].
  assert (NS : match vp with Some ws => wint (hd wnone ws) | None => 3%Z end = 3%Z). { destruct vp as [cs|]; [|reflexivity]. specialize (VC 0%nat ltac:(cbn; lia)). destruct cs; exact VC. }
  rewrite NS. change (negb (3 =? 3)%Z) with false. cbv iota. destruct (Nat.ltb_spec (pvoffset p) (pni p)); [|lia].
  pose proof (TW 0%nat t eq_refl) as T0. destruct t as [[a b] c]. cbn [tri_words] in T0. destruct T0 as (A & B & C). unfold corner_word in A, B, C. change (3 * 0 + 0)%nat with 0%nat in A. change (3 * 0 + 1)%nat with 1%nat in B. change (3 * 0 + 2)%nat with 2%nat in C.
  pose proof (IN _ (or_introl eq_refl)) as I0. cbn [shift inside] in I0. destruct I0 as (IA & IB & IC).
  cbv zeta beta. rewrite A, B, C. rewrite <- !Nat2Z.inj_add. rewrite make_face by assumption.
  rewrite IH; [reflexivity| | |intros t' I'; apply IN; right; exact I'].
  - destruct vp as [cs|]; [|exact I]. intros i LI. specialize (VC (Datatypes.S i) ltac:(cbn; lia)). destruct cs as [|w cs]; [destruct i; exact VC|exact VC].
  - intros i t' E. specialize (TW (Datatypes.S i) t' E). destruct t' as [[a' b'] c']. cbn [tri_words] in *. rewrite !corner_skip. exact TW.
Qed.
Lemma prims_faces vs vo ps tss : Forall2 prim_rel ps tss -> (forall t, List.In t (concat tss) -> inside (length vs) (shift vo t)) ->
  primsFaces vs vo ps = Some (map (fun t => Some (tri_face vs (shift vo t))) (concat tss)).
Proof.
  induction 1 as [|p ts ps tss (PC & LT & ws & PP & VC & TW) F IH]; intros IN; [reflexivity|]. cbn [primsFaces concat]. unfold primAll. rewrite PP, PC.
  rewrite (prim_faces p vs vo ts LT _ _ VC TW) by (intros t I; apply IN; cbn [concat]; apply in_or_app; left; exact I). rewrite IH by (intros t I; apply IN; cbn [concat]; apply in_or_app; right; exact I). rewrite map_app. reflexivity.
Qed.
Lemma placed_length nodes ms : length (flat_map (placed nodes) ms) = fold_right (fun d n => (length (dm_pts d) + n)%nat) 0%nat ms.
Proof. induction ms as [|d ms IH]; [reflexivity|]. cbn [flat_map fold_right]. rewrite app_length, IH. unfold placed. rewrite map_length. reflexivity. Qed.
Lemma all_tris_in ms : (forall d, List.In d ms -> in_mesh d) -> forall k t, List.In t (all_tris ms k) -> inside (k + fold_right (fun d n => (length (dm_pts d) + n)%nat) 0%nat ms) t.
Proof.
  induction ms as [|d ms IH]; intros IM k t I; [destruct I|]. cbn [all_tris fold_right] in *. apply in_app_or in I. destruct I as [I|I].
  - apply in_map_iff in I. destruct I as ([[a b] c] & <- & I). pose proof (IM d (or_introl eq_refl) a b c I). cbn [inside]. lia.
  - specialize (IH (fun d' D => IM d' (or_intror D)) _ t I). destruct t as [[a b] c]. cbn [inside] in *. lia.
Qed.
Lemma all_faces nodes vs ml ms : Forall2 (at_place nodes) ml ms -> forall vo, (forall t, List.In t (all_tris ms vo) -> inside (length vs) t) ->
  allFaces vs vo ml = Some (map (fun t => Some (tri_face vs t)) (all_tris ms vo)).
Proof.
  induction 1 as [|m d ml ms ((_ & (s & V & (SC & _)) & PR) & X) F IH]; intros vo IN; [reflexivity|]. cbn [allFaces all_tris] in *. rewrite V, SC.
  rewrite (prims_faces vs vo _ _ PR) by (intros t I; apply IN, in_or_app; left; apply in_map_iff; exists t; split; [destruct t as [[a b] c]; reflexivity|exact I]).
  rewrite IH by (intros t I; apply IN, in_or_app; right; exact I). rewrite map_app, map_map. reflexivity.
Qed.
Theorem dae_read strict junk root ms nodes : dae_doc root ms nodes -> (forall d, List.In d ms -> in_mesh d) -> (forall x, List.In x nodes -> Forall fair (fst x)) ->
  exists fs, zPH3DReadFileDAE strict junk root = DPoly (flat_map (placed nodes) ms) (map Some fs) /\ faces_are (flat_map (placed nodes) ms) (map face_key fs) (all_tris ms 0).
Proof.
  intros D IM FF. destruct (eval_ok strict root ms nodes D FF) as (ml & E & R). unfold zPH3DReadFileDAE. rewrite E, (all_verts nodes junk ml ms R).
  assert (IN : forall t, List.In t (all_tris ms 0) -> inside (length (flat_map (placed nodes) ms)) t) by (intros t I; rewrite placed_length; apply (all_tris_in ms IM 0 t I)).
  rewrite (all_faces nodes _ ml ms R 0 IN). exists (map (tri_face (flat_map (placed nodes) ms)) (all_tris ms 0)). split; [rewrite map_map; reflexivity|].
  apply faces_are_made. intros t I. apply IN in I. destruct t as [[a b] c]. exact I.
Qed.
Lemma vadd_0 p : vadd p (V3 0 0 0) = p.
Proof. vring. Qed.
(** a mesh that no node shows stays where it is, and of several nodes that show it the last counts *)
Theorem dae_shown nodes os d : (shown nodes (dm_id d) = [] -> placed nodes d = dm_pts d) /\ placed (nodes ++ [(os, Some (dm_id d))]) d = map (done os) (dm_pts d).
Proof.
  split.
  - intros E. unfold placed. rewrite E. cbn [last]. rewrite <- (map_id (dm_pts d)) at 2. apply map_ext. intros p. apply vadd_0.
  - unfold placed. rewrite shown_snoc. cbn [snd fst]. rewrite String.eqb_refl, last_last. reflexivity.
Qed.

(** ** The meaning of placements *)
Lemma meant_app a b p : meant (a ++ b) p = meant a (meant b p).
Proof. unfold meant. apply fold_right_app. Qed.
Lemma meant_cons o os p : meant (o :: os) p = meant1 o (meant os p).
Proof. reflexivity. Qed.
Lemma done_gen os : no_matrix os -> forall L t p, done_from os L t p = vadd (meant (moves os) (meant (rev (others os)) (L p))) t.
Proof.
  induction os as [|o os IH]; intros NM L t p; [reflexivity|]. assert (NM' : no_matrix os) by (intros m u I; apply (NM m u); right; exact I).
  destruct o as [m u|u|a q|k]; cbn [done_from moves others filter rev].
  - exfalso. apply (NM m u). left. reflexivity.
  - rewrite IH by exact NM'. fold (moves os) (others os). rewrite meant_cons. cbn [meant1]. generalize (meant (moves os) (meant (rev (others os)) (L p))) as w. intros w. vring.
  - rewrite IH by exact NM'. fold (others os). rewrite meant_app. reflexivity.
  - rewrite IH by exact NM'. fold (others os). rewrite meant_app. reflexivity.
Qed.
(** without a matrix: the moves are done last, the others in reverse *)
Theorem done_plain os p : no_matrix os -> done os p = meant (moves os ++ rev (others os)) p.
Proof. intros NM. unfold done. rewrite done_gen by exact NM. rewrite vadd_0, meant_app. reflexivity. Qed.
Lemma done_skip os1 m u os2 : forall L t p, done_from (os1 ++ PMatrix m u :: os2) L t p = done_from os2 (mvec (mtr m)) u p.
Proof. induction os1 as [|o os1 IH]; intros L t p; [reflexivity|]. destruct o; cbn [app done_from]; apply IH. Qed.
(** a matrix: what stands before it is dropped, and it is transposed *)
Theorem done_matrix os1 m u os2 p : no_matrix os2 -> done (os1 ++ PMatrix m u :: os2) p = meant (PMove u :: moves os2 ++ rev (others os2) ++ [PMatrix (mtr m) (V3 0 0 0)]) p.
Proof. intros NM. unfold done. rewrite done_skip, done_gen by exact NM. rewrite meant_cons, !meant_app, meant_cons. cbn [meant1]. rewrite vadd_0. reflexivity. Qed.
Lemma moves_only us ls : (forall o, List.In o ls -> match o with PTurn _ _ | PScale _ => True | _ => False end) -> moves (map PMove us ++ ls) = map PMove us /\ others (map PMove us ++ ls) = ls /\ no_matrix (map PMove us ++ ls).
Proof.
  intros H. unfold moves, others. rewrite !filter_app. repeat split.
  - replace (filter _ ls) with (@nil place); [rewrite app_nil_r; induction us; cbn; congruence|]. symmetry. induction ls as [|o ls IH]; [reflexivity|]. pose proof (H o (or_introl eq_refl)). cbn [filter]. destruct o; try contradiction; apply IH; intros o' O; apply H; right; exact O.
  - replace (filter _ (map PMove us)) with (@nil place) by (induction us; cbn; congruence). cbn [app]. induction ls as [|o ls IH]; [reflexivity|]. pose proof (H o (or_introl eq_refl)). cbn [filter]. destruct o; try contradiction; f_equal; apply IH; intros o' O; apply H; right; exact O.
  - intros m t I. apply in_app_or in I. destruct I as [I|I]; [apply in_map_iff in I; destruct I as (u & E & _); discriminate|exact (H _ I)].
Qed.
Lemma commute_rev ls : (forall o o' q, List.In o ls -> List.In o' ls -> meant1 o (meant1 o' q) = meant1 o' (meant1 o q)) -> forall p, meant (rev ls) p = meant ls p.
Proof.
  induction ls as [|o ls IH]; intros C p; [reflexivity|]. cbn [rev]. rewrite meant_app. cbn [meant fold_right]. change (fold_right meant1 p ls) with (meant ls p). change (fold_right meant1 (meant1 o p) (rev ls)) with (meant (rev ls) (meant1 o p)).
  rewrite IH by (intros; apply C; right; assumption).
  assert (G : forall l, (forall o', List.In o' l -> List.In o' ls) -> meant l (meant1 o p) = meant1 o (meant l p)).
  { induction l as [|a l IHl]; intros S; [reflexivity|]. cbn [meant fold_right]. change (fold_right meant1 (meant1 o p) l) with (meant l (meant1 o p)). rewrite IHl by (intros; apply S; right; assumption). apply C; [right; apply S; left; reflexivity|left; reflexivity]. }
  apply G. auto.
Qed.
(** moves first, then turns and scales that commute: as the standard has it *)
Theorem done_standard us ls p : (forall o, List.In o ls -> match o with PTurn _ _ | PScale _ => True | _ => False end) ->
  (forall o o' q, List.In o ls -> List.In o' ls -> meant1 o (meant1 o' q) = meant1 o' (meant1 o q)) -> done (map PMove us ++ ls) p = meant (map PMove us ++ ls) p.
Proof. intros H C. destruct (moves_only us ls H) as (A & B & NM). rewrite done_plain by exact NM. rewrite A, B, !meant_app, commute_rev by exact C. reflexivity. Qed.
Theorem matrix_iff m u : (forall p, done [PMatrix m u] p = meant [PMatrix m u] p) <-> symmetric m.
Proof.
  assert (E : forall p, done [PMatrix m u] p = vadd (mvec (mtr m) p) u) by reflexivity. assert (E2 : forall p, meant [PMatrix m u] p = vadd (mvec m p) u) by reflexivity. split.
  - intros H. pose proof (H (V3 1 0 0)) as A. pose proof (H (V3 0 1 0)) as B. pose proof (H (V3 0 0 1)) as C. rewrite E, E2 in A, B, C. clear - A B C. destruct m, u. unfold symmetric. spec_unfold. cbn in *. injection A as A1 A2 A3. injection B as B1 B2 B3. injection C as C1 C2 C3. f_equal; lra.
  - intros S p. rewrite E, E2, S. reflexivity.
Qed.
Lemma turn90 a p : turn a 90 p = vadd (cross a p) (vscale (dot a p) a).
Proof. unfold turn. replace (90 * PI / 180) with (PI / 2) by field. unfold rodrigues. rewrite cos_PI2, sin_PI2. destruct a, p. spec_unfold. cbn. f_equal; ring. Qed.
(** two quarter turns; a turn and a move; a turn and a scale *)
Theorem order_refuted :
  (exists p, done [PTurn (V3 1 0 0) 90; PTurn (V3 0 1 0) 90] p <> meant [PTurn (V3 1 0 0) 90; PTurn (V3 0 1 0) 90] p) /\
  (exists p, done [PTurn (V3 0 0 1) 90; PMove (V3 1 0 0)] p <> meant [PTurn (V3 0 0 1) 90; PMove (V3 1 0 0)] p) /\
  (exists p, done [PTurn (V3 0 0 1) 90; PScale (V3 2 1 1)] p <> meant [PTurn (V3 0 0 1) 90; PScale (V3 2 1 1)] p).
Proof.
  split; [exists (V3 1 0 0)|split; [exists (V3 0 0 0)|exists (V3 1 0 0)]]; unfold done, meant; cbn [done_from fold_right meant1 linear1]; rewrite !turn90; intros H; pose proof (f_equal vx H) as HX; pose proof (f_equal vy H) as HY; clear H; unfold stretch, vadd, cross, vscale, dot in HX, HY; cbn [vx vy vz] in HX, HY; lra.
Qed.

(** ** Files that are not read *)
Definition stays (r : rd (option (list zDAEMesh))) : Prop := r = ROk None \/ r = RFail None \/ r = RUndef.
Lemma stays_each strict (exec : option (list zDAEMesh) -> xnode -> rd (option (list zDAEMesh))) l : (forall n, List.In n l -> stays (exec None n)) -> stays (eachNode strict exec None l).
Proof.
  unfold stays. induction l as [|n l IH]; intros H; [left; reflexivity|]. cbn [eachNode]. specialize (IH (fun k K => H k (or_intror K))). destruct (H n (or_introl eq_refl)) as [->|[->| ->]]; [exact IH|destruct strict; [right; left; reflexivity|exact IH]|right; right; reflexivity].
Qed.
Theorem dae_undefined strict junk root : xname root <> "COLLADA"%string \/ kids root ["library_geometries"%string] = [] -> zPH3DReadFileDAE strict junk root = DUndef.
Proof.
  intros H. unfold zPH3DReadFileDAE, zDAEEval. destruct (String.eqb_spec (xname root) "COLLADA") as [E|E]; [|reflexivity]. destruct H as [H|H]; [contradiction|].
  match goal with |- context [eachNode strict ?f None (xkids root)] => assert (S : stays (eachNode strict f None (xkids root))) end.
  - apply stays_each. intros n I. destruct (String.eqb (xname n) "library_geometries") eqn:NG.
    + exfalso. unfold kids in H. assert (X : List.In n (filter (among ["library_geometries"%string]) (xkids root))) by (apply filter_In; split; [exact I|rewrite among_1; exact NG]). rewrite H in X. destruct X.
    + destruct (String.eqb (xname n) "library_visual_scenes"); [|left; reflexivity]. unfold zDAEEvalLibraryVisualScenes. destruct (zXMLFindNodeElement (xkids n) "visual_scene") as [v|]; [|right; left; reflexivity].
      apply stays_each. intros k _. destruct (String.eqb (xname k) "node"); [|left; reflexivity]. unfold zDAEEvalXform. destruct (xformNodes strict (xkids k) None ZFRAME3DIDENT None) as [(f & [j|])| |]; unfold stays; auto.
  - destruct S as [->|[->| ->]]; reflexivity.
Qed.
Theorem dae_empty strict junk root lg : xname root = "COLLADA"%string -> kids root ["library_geometries"; "library_visual_scenes"]%string = [lg] -> xname lg = "library_geometries"%string -> kids lg ["geometry"%string] = [] ->
  zPH3DReadFileDAE strict junk root = DNull.
Proof.
  intros NR K NG KG. unfold zPH3DReadFileDAE, zDAEEval. rewrite NR. change (String.eqb "COLLADA" "COLLADA") with true. cbv iota.
  rewrite (each_filter strict _ ["library_geometries"; "library_visual_scenes"]%string) by (intros s k A; rewrite among_2 in A; apply Bool.orb_false_iff in A; destruct A as (-> & ->); reflexivity).
  change (filter (among ["library_geometries"%string; "library_visual_scenes"%string]) (xkids root)) with (kids root ["library_geometries"; "library_visual_scenes"]%string). rewrite K. cbn [eachNode]. rewrite NG. change (String.eqb "library_geometries" "library_geometries") with true. cbv iota.
  unfold zDAEEvalLibraryGeometries. rewrite (each_filter strict _ ["geometry"%string]) by (intros s k A; rewrite among_1 in A; rewrite A; reflexivity). fold (kids lg ["geometry"%string]). rewrite KG. reflexivity.
Qed.

(** ** Documents *)
Definition word (z : Z) : xword := XW z (IZR z).
Definition ex_source : xnode := XN "source" [("id", "pos")]%string None
  [XN "float_array" [("id", "pos-array"); ("count", "12")]%string (Some (map word [0;0;0; 1;0;0; 0;1;0; 0;0;1])%Z) [];
   XN "technique_common" [] None [XN "accessor" [("source", "#pos-array"); ("count", "4"); ("stride", "3")]%string None
     [XN "param" [("name", "X"); ("type", "float")]%string None []; XN "param" [("name", "Y"); ("type", "float")]%string None []; XN "param" [("name", "Z"); ("type", "float")]%string None []]]].
Definition ex_vertices : xnode := XN "vertices" [("id", "v")]%string None [XN "input" [("semantic", "POSITION"); ("source", "#pos")]%string None []].
Definition ex_inputs : list xnode := [XN "input" [("semantic", "VERTEX"); ("source", "#v"); ("offset", "0")]%string None []; XN "input" [("semantic", "NORMAL"); ("source", "#n"); ("offset", "1")]%string None []].
Definition ex_group (counts : Z -> list xnode) (n : string) (ws : list Z) : xnode :=
  XN "polylist" [("material", "m"); ("count", n)]%string None (ex_inputs ++ counts 3%Z ++ [XN "p" [] (Some (map word ws)) []]).
Definition ex_root (g : xnode) (scene : list xnode) : xnode := XN "COLLADA" [] None
  [XN "asset" [] None []; XN "library_geometries" [] None [XN "geometry" [("id", "g")]%string None [XN "mesh" [] None [ex_source; ex_vertices; g]]];
   XN "library_visual_scenes" [] None [XN "visual_scene" [("id", "s")]%string None scene]].
(** two triangles, shown once: moved and turned *)
Definition ex_two : xnode := ex_group (fun c => [XN "vcount" [] (Some [word c; word c]) []]) "2" [0;0; 1;0; 2;0; 0;1; 2;1; 3;1]%Z.
Definition ex_node : xnode := XN "node" [("id", "n")]%string None
  [XN "translate" [] (Some (map word [1; 2; 3]%Z)) []; XN "rotate" [] (Some (map word [0; 0; 1; 90]%Z)) []; XN "instance_geometry" [("url", "#g")]%string None []].
(** one polygon of four corners *)
Definition ex_quad : xnode := ex_group (fun c => [XN "vcount" [] (Some [word (c + 1)]) []]) "1" [0;0; 1;0; 2;0; 3;0]%Z.
Theorem polygon_refuted strict junk : exists vs, zPH3DReadFileDAE strict junk (ex_root ex_quad []) = DPoly vs [None].
Proof. eexists. destruct strict; cbv - [IZR zXform3D makeFace ZFRAME3DIDENT]; reflexivity. Qed.

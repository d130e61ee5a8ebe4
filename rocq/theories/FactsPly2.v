(** PLY files: whole documents. *)
From Coq Require Import Ascii String List ZArith Lia Lra Reals.
From Verif Require Import Base SpecPly ModelPly FactsStl FactsPly.
Import ListNotations.
Open Scope list_scope.
Open Scope R_scope.

Lemma upd_lacks name ps : forall j old, (forall i t, nth_error ps i <> Some (Number t name)) -> upd name j ps old = old.
Proof.
  induction ps as [|[t n|tn t] ps IH]; intros j old L; cbn [upd]; [reflexivity| |].
  - destruct (String.eqb_spec n name) as [->|_]; [exfalso; exact (L 0%nat t eq_refl)|]. apply IH. intros i t'. exact (L (Datatypes.S i) t').
  - apply IH. intros i t'. exact (L (Datatypes.S i) t').
Qed.
Lemma upd_only name ps : forall j i old, only_place ps name i -> upd name j ps old = (j + i)%nat.
Proof.
  induction ps as [|p ps IH]; intros j i old [[t E] U]; [destruct i; discriminate E|].
  destruct i as [|i].
  - cbn in E. injection E as ->. cbn [upd]. rewrite String.eqb_refl, Nat.add_0_r. apply upd_lacks.
    intros k t' Q. specialize (U (Datatypes.S k) t' Q). discriminate U.
  - assert (O : only_place ps name i). { split; [exists t; exact E|]. intros k t' Q. specialize (U (Datatypes.S k) t' Q). lia. }
    destruct p as [t0 n|tn t0]; cbn [upd]; rewrite (IH _ i _ O); lia.
Qed.

Definition not_vertex (e : element) : Prop := is_vertex (etf e) = false.
Lemma updv_other name es : Forall not_vertex es -> forall old, updv name es old = old.
Proof. unfold updv. induction 1 as [|e es H F IH]; intros old; cbn [fold_left]; [reflexivity|]. rewrite H. apply IH. Qed.
Lemma updv_app name a b old : updv name (a ++ b) old = updv name b (updv name a old).
Proof. unfold updv. apply fold_left_app. Qed.
Lemma read_over_type e : read_over e -> named e /\ not_vertex e /\
  ((etf e = ZEDGE \/ etf e = ZMATERIAL) /\ numbers (el_props e) \/ etf e = ZRANGE_GRID /\ forall tn t, List.In (Indices tn t) (el_props e) -> tn = t).
Proof.
  unfold named, not_vertex, etf. intros [[[E|E] N]|[E N]]; rewrite E; cbn; repeat split; auto.
Qed.

Lemma updl_all sel lt ps : (forall tn t, List.In (Indices tn t) ps -> (tn, t) = lt) -> forall old,
  (old = zPLYPrpFind (HW (sel lt)) -> updl sel ps old = old) /\
  ((exists tn t, List.In (Indices tn t) ps) -> updl sel ps old = zPLYPrpFind (HW (sel lt))) /\
  (updl sel ps old = old \/ updl sel ps old = zPLYPrpFind (HW (sel lt))).
Proof.
  induction ps as [|[t n|tn t] ps IH]; intros H old; cbn [updl].
  - split; [auto|]. split; [|auto]. intros (tn & t & []).
  - destruct (IH (fun tn t' I => H tn t' (or_intror I)) old) as (A & B & C). split; [exact A|]. split; [|exact C].
    intros (tn & t' & [E|I]); [discriminate E|]. apply B. exists tn, t'. exact I.
  - assert (E := H tn t (or_introl eq_refl)). rewrite E.
    destruct (IH (fun tn t' I => H tn t' (or_intror I)) (zPLYPrpFind (HW (sel lt)))) as (A & B & C).
    rewrite (A eq_refl). auto.
Qed.
Lemma updls_all sel lt es : (forall e, List.In e es -> lists_are lt e) -> forall old,
  (old = zPLYPrpFind (HW (sel lt)) -> updls sel es old = old) /\
  ((exists e tn t, List.In e es /\ List.In (Indices tn t) (el_props e)) -> updls sel es old = zPLYPrpFind (HW (sel lt))).
Proof.
  unfold updls. induction es as [|e es IH]; intros H old; cbn [fold_left].
  - split; [auto|]. intros (e & tn & t & [] & _).
  - destruct (updl_all sel lt (el_props e) (H e (or_introl eq_refl)) old) as (A & B & C).
    destruct (IH (fun e' I => H e' (or_intror I)) (updl sel (el_props e) old)) as (A' & B'). split.
    + intros E. rewrite A' by (rewrite (A E); exact E). apply A, E.
    + intros (e' & tn & t & [->|I] & J).
      * assert (Q : updl sel (el_props e') old = zPLYPrpFind (HW (sel lt))) by (apply B; exists tn, t; exact J). rewrite A' by exact Q. exact Q.
      * apply B'. exists e', tn, t. auto.
Qed.

Section Doc.
Variable c : codes.
Variable junk : vec3.

Lemma data_over f p pre : forall es ph ds s, Forall read_over pre -> (forall e, List.In e pre -> list_types p (el_props e)) -> body c f pre ds ->
  zPH3DFReadPLYData c (fmt f) p (map (fun e => pe_of (etf e) e) pre ++ es) junk ph (ds ++ s) = zPH3DFReadPLYData c (fmt f) p es junk ph s.
Proof.
  induction pre as [|e pre IH]; intros es ph ds s F LT B; inversion B as [|? ? d ds' R B']; subst; [reflexivity|].
  inversion F as [|? ? RO F']; subst. cbn [map app zPH3DFReadPLYData]. rewrite <- app_assoc.
  destruct (read_over_type e RO) as (_ & _ & [[T N]|[T N]]).
  - unfold pe_of at 1. cbn [pe_type]. assert (G : zPH3DFReadPLYElem (Z.to_nat (pe_num (pe_of (etf e) e))) c (fmt f) (pe_prp (pe_of (etf e) e)) (d ++ ds' ++ s) = Some (Some (ds' ++ s))).
    { unfold pe_of. cbn [pe_num pe_prp]. rewrite Nat2Z.id. apply elem_rows; assumption. }
    destruct T as [T|T]; rewrite T in G |- *; rewrite G; apply IH; auto; intros e' I; apply LT; right; exact I.
  - unfold pe_of at 1. cbn [pe_type]. assert (G : zPH3DFReadPLYRangeGrid (Z.to_nat (pe_num (pe_of (etf e) e))) c (fmt f) p (pe_prp (pe_of (etf e) e)) (d ++ ds' ++ s) = Some (ds' ++ s)).
    { unfold pe_of. cbn [pe_num pe_prp]. rewrite Nat2Z.id. apply grid_rows; [assumption|apply LT; left; reflexivity|exact N]. }
    rewrite T in G |- *; rewrite G; apply IH; auto; intros e' I; apply LT; right; exact I.
Qed.
Lemma body_app f a : forall b ds, body c f (a ++ b) ds -> exists d1 d2, ds = d1 ++ d2 /\ body c f a d1 /\ body c f b d2.
Proof.
  induction a as [|e a IH]; intros b ds B.
  - exists [], ds. repeat split; [constructor|exact B].
  - cbn [app] in B. inversion B as [|? ? d ds' R B']; subst. destruct (IH _ _ B') as (d1 & d2 & -> & X & Y).
    exists (d ++ d1), d2. rewrite app_assoc. repeat split; [constructor; assumption|exact Y].
Qed.
Lemma body_cons f e es ds : body c f (e :: es) ds -> exists d1 d2, ds = d1 ++ d2 /\ rows c f (el_props e) (el_rows e) d1 /\ body c f es d2.
Proof. intros B. inversion B as [|? ? d ds' R B']; subst. exists d, ds'. auto. Qed.

Lemma row_length f ps cs ds : row c f ps cs ds -> length cs = length ps.
Proof. induction 1; cbn [length]; lia. Qed.

(** what the vertex element gives *)
Lemma vert_data f p v ds s : rows c f (el_props v) (el_rows v) ds -> numbers (el_props v) ->
  zPH3DFReadPLYVert c (fmt f) p (pe_of ZVERTEX v) junk (PH [] []) (ds ++ s) =
  Some (Some (PH (map (fun r => V3 (pick (p_x p) 0 r (vx junk)) (pick (p_y p) 0 r (vy junk)) (pick (p_z p) 0 r (vz junk))) (el_rows v)) [], s)).
Proof.
  intros R N. unfold zPH3DFReadPLYVert, pe_of. cbn [pe_num pe_prp pfaces]. rewrite Nat2Z.id.
  destruct (Z.leb_spec (Z.of_nat (length (el_rows v))) 0) as [L|L].
  - destruct (el_rows v) as [|r rs]; [|cbn [length] in L; lia]. inversion R; subst. reflexivity.
  - rewrite (vert_rows c f p (el_props v) junk (el_rows v) ds R N). reflexivity.
Qed.
Lemma pick_value name v r x : value_or_first (el_props v) r name x -> forall old, pick (upd name 0 (el_props v) 0) 0 r old = x.
Proof.
  intros H old. unfold pick. destruct (Nat.ltb_spec (upd name 0 (el_props v) 0) 0) as [W|_]; [lia|]. rewrite Nat.sub_0_r.
  destruct H as [(j & O & E)|(L & E)].
  - rewrite (upd_only name _ 0 j 0 O). cbn [Nat.add]. rewrite E. reflexivity.
  - rewrite (upd_lacks name _ 0 0 L), E. reflexivity.
Qed.

Lemma lists_known lt es x y z : (forall e, List.In e es -> lists_are lt e) -> forall e F pe, List.In e es ->
  list_types (PLY F pe x y z (updls fst es None) (updls snd es None)) (el_props e).
Proof.
  intros H e F pe I tn t J. cbn [p_listnum p_listelem]. assert (E := H e I tn t J).
  destruct (updls_all fst lt es H None) as [_ A]. destruct (updls_all snd lt es H None) as [_ B].
  rewrite A, B by (exists e, tn, t; auto). rewrite <- E. auto.
Qed.

Lemma faces_are_made vs ts : (forall t, List.In t ts -> let '(i, j, k) := t in (i < length vs)%nat /\ (j < length vs)%nat /\ (k < length vs)%nat) ->
  faces_are vs (map face_key (map (tri_face vs) ts)) ts.
Proof.
  intros H. split.
  - rewrite !map_map. rewrite <- (map_id ts) at 2. apply map_ext. intros [[i j] k]. reflexivity.
  - rewrite map_map. apply Forall_forall. intros f I. apply in_map_iff in I. destruct I as ([[i j] k] & <- & I). specialize (H _ I). cbn in H. destruct H as (A & B & D).
    exists (nth i vs (V3 0 0 0), nth j vs (V3 0 0 0), nth k vs (V3 0 0 0)). unfold face_key, tri_face. cbn [fst snd fi0 fi1 fi2 fnrm triangle_of]. split; [|apply normal_created].
    repeat split; apply nth_error_nth'; assumption.
Qed.
Lemma on_first_side_in l i j k : List.In (i, j, k) (on_first_side l) -> List.In i l /\ List.In j l /\ List.In k l.
Proof.
  destruct l as [|a [|b r]]; cbn [on_first_side]; try (intros []). intros I. apply in_map_iff in I. destruct I as (d & E & I). injection E as <- <- <-. cbn [List.In]. auto.
Qed.

Lemma ply_or_first f lt v g es lines ds rest vs : document lt v g es -> header f es lines -> body c f es ds -> positions_or_first v vs -> all_below (length vs) (polygons_opt g) ->
  exists fs, zPH3DReadFilePLY c junk lines (ds ++ rest) = Some (Some (PH vs fs)) /\ faces_are vs (map face_key fs) (flat_map on_first_side (polygons_opt g)).
Proof.
  intros (L5 & LIM & NV & NUM & pre & mid & FP & FM & G) H B P AB.
  assert (NV' : named v /\ etf v = ZVERTEX) by (unfold named, etf; rewrite NV; split; reflexivity). destruct NV' as [NV1 NV2].
  set (tail := match g with Some _ => skipn (length pre + 1 + length mid) es | None => [] end).
  assert (ES : es = pre ++ v :: mid ++ tail).
  { destruct g as [g|]; [|unfold tail; rewrite app_nil_r; exact G]. destruct G as (_ & post & _ & E). unfold tail. rewrite E at 2.
    replace (pre ++ v :: mid ++ g :: post) with ((pre ++ [v] ++ mid) ++ g :: post) by (rewrite <- !app_assoc; reflexivity).
    rewrite skipn_app, skipn_all2 by (rewrite !app_length; cbn [length]; lia).
    replace (length pre + 1 + length mid - length (pre ++ [v] ++ mid))%nat with 0%nat by (rewrite !app_length; cbn [length]; lia). exact E. }
  assert (TL : match g with Some g => named g /\ etf g = ZFACE /\ exists post, Forall read_over post /\ tail = g :: post | None => tail = [] end).
  { destruct g as [g|]; [|reflexivity]. destruct G as (NG & post & FO & E). unfold named, etf. rewrite NG. repeat split. exists post. split; [exact FO|].
    rewrite ES in E at 1. apply app_inv_head in E. injection E as E. apply app_inv_head in E. exact E. }
  clearbody tail. clear G.
  assert (NT : Forall not_vertex tail).
  { destruct g as [g|]; [|rewrite TL; constructor]. destruct TL as (_ & EG & post & FO & ->). constructor; [unfold not_vertex; rewrite EG; reflexivity|].
    eapply Forall_impl; [|exact FO]. intros e RO. apply (read_over_type e RO). }
  assert (NN : forall e, List.In e es -> named e /\ in_limits e).
  { intros e I. split; [|apply LIM; exact I]. rewrite ES in I. apply in_app_or in I. destruct I as [I|[<-|I]].
    - rewrite Forall_forall in FP. apply (read_over_type e (FP e I)).
    - exact NV1.
    - apply in_app_or in I. destruct I as [I|I]; [rewrite Forall_forall in FM; apply (read_over_type e (FM e I))|].
      destruct g as [g|]; [|rewrite TL in I; destruct I]. destruct TL as (NG & _ & post & FO & ->). destruct I as [<-|I]; [exact NG|]. rewrite Forall_forall in FO. apply (read_over_type e (FO e I)). }
  destruct (read_header f es lines H NN L5) as (more & -> & RH).
  assert (UV : forall name, updv name es 0 = upd name 0 (el_props v) 0).
  { intros name. rewrite ES, updv_app. rewrite (updv_other name pre) by (eapply Forall_impl; [|exact FP]; intros e RO; apply (read_over_type e RO)).
    change (v :: mid ++ tail) with ([v] ++ mid ++ tail). rewrite !updv_app. rewrite (updv_other name tail NT).
    rewrite (updv_other name mid) by (eapply Forall_impl; [|exact FM]; intros e RO; apply (read_over_type e RO)).
    unfold updv. cbn [fold_left]. rewrite NV2. reflexivity. }
  rewrite !UV in RH.
  set (p := PLY (Some (fmt f)) (map (fun e => pe_of (etf e) e) es) (upd "x" 0 (el_props v) 0) (upd "y" 0 (el_props v) 0) (upd "z" 0 (el_props v) 0) (updls fst es None) (updls snd es None)) in *.
  assert (LT : forall e, List.In e es -> list_types p (el_props e)).
  { intros e I. unfold p. apply (lists_known lt); [intros e' I'; apply LIM; exact I'|exact I]. }
  assert (VS : map (fun r => V3 (pick (p_x p) 0 r (vx junk)) (pick (p_y p) 0 r (vy junk)) (pick (p_z p) 0 r (vz junk))) (el_rows v) = vs).
  { unfold p. cbn [p_x p_y p_z]. unfold positions_or_first in P. revert P. clear. generalize (el_rows v) as rs. intros rs P. induction P as [|r [a b d] rs vs (X & Y & Z0) P IH]; [reflexivity|]. cbn [map]. rewrite IH. f_equal.
    cbn [vx vy vz] in *. f_equal; eapply pick_value; assumption. }
  unfold zPH3DReadFilePLY. change (String.prefix "ply" "ply") with true. cbv iota. rewrite RH. unfold p at 1 3. cbn [p_format p_elem]. fold p.
  rewrite ES in B. destruct (body_app f pre _ _ B) as (d1 & d2 & -> & B1 & B2). destruct (body_cons f v _ _ B2) as (d3 & d4 & -> & RV & B3). destruct (body_app f mid _ _ B3) as (d5 & d6 & -> & B5 & B6).
  rewrite ES, !map_app. rewrite <- !app_assoc. rewrite (data_over f p pre _ _ _ _ FP); [|intros e I; apply LT; rewrite ES; apply in_or_app; left; exact I|exact B1].
  cbn [map app zPH3DFReadPLYData]. unfold pe_of at 1. cbn [pe_type]. rewrite NV2. rewrite vert_data; [|exact RV|exact NUM]. rewrite VS.
  rewrite map_app. rewrite (data_over f p mid _ _ _ _ FM); [|intros e I; apply LT; rewrite ES; apply in_or_app; right; right; apply in_or_app; left; exact I|exact B5].
  destruct g as [g|].
  - destruct TL as (NG & EG & post & FO & TE). subst tail. destruct (body_cons f g _ _ B6) as (d7 & d8 & -> & RG & B8).
    cbn [map app zPH3DFReadPLYData]. unfold pe_of at 1. cbn [pe_type]. rewrite EG. rewrite <- !app_assoc.
    rewrite (read_faces c f p vs g d7 RG); [|apply LT; rewrite ES; apply in_or_app; right; right; apply in_or_app; right; left; reflexivity|exact AB].
    rewrite <- (app_nil_r (map (fun e => pe_of (etf e) e) post)).
    rewrite (data_over f p post _ _ _ _ FO); [|intros e I; apply LT; rewrite ES; apply in_or_app; right; right; apply in_or_app; right; right; exact I|exact B8].
    cbn [zPH3DFReadPLYData]. eexists. split; [reflexivity|]. cbn [polygons_opt]. apply faces_are_made.
    intros [[i j] k] I. apply in_flat_map in I. destruct I as (l & I & J). apply on_first_side_in in J. destruct J as (J1 & J2 & J3).
    repeat split; eapply AB; eauto.
  - subst tail. cbn [map zPH3DFReadPLYData]. exists []. split; [reflexivity|]. cbn. split; [reflexivity|constructor].
Qed.
End Doc.

Lemma positions_first v vs : positions v vs -> positions_or_first v vs.
Proof. unfold positions, positions_or_first. intros H. induction H as [|r p rs ps (A & B & D) H IH]; constructor; [|exact IH]. unfold value_or_first. auto. Qed.

Lemma ply_reads : forall c junk f lt v g es lines ds rest vs, document lt v g es -> header f es lines -> body c f es ds -> positions v vs -> all_below (length vs) (polygons_opt g) ->
  exists fs, zPH3DReadFilePLY c junk lines (ds ++ rest) = Some (Some (PH vs fs)) /\ faces_are vs (map face_key fs) (flat_map on_first_side (polygons_opt g)).
Proof.
  intros. eapply ply_or_first; eauto. apply positions_first. assumption.
Qed.
Lemma ply_triangles : forall c junk f lt v g es lines ds rest vs, document lt v g es -> header f es lines -> body c f es ds -> positions v vs -> all_below (length vs) (polygons_opt g) ->
  (forall l, List.In l (polygons_opt g) -> (length l <= 3)%nat) ->
  exists fs, zPH3DReadFilePLY c junk lines (ds ++ rest) = Some (Some (PH vs fs)) /\ faces_are vs (map face_key fs) (flat_map fan (polygons_opt g)).
Proof.
  intros c junk f lt v g es lines ds rest vs D H B P A T. destruct (ply_reads c junk f lt v g es lines ds rest vs D H B P A) as (fs & E & F). exists fs. split; [exact E|].
  replace (flat_map fan (polygons_opt g)) with (flat_map on_first_side (polygons_opt g)); [exact F|]. revert T. clear.
  induction (polygons_opt g) as [|l ls IH]; intros T; [reflexivity|]. cbn [flat_map]. rewrite IH by (intros l' I; apply T; right; exact I). f_equal.
  specialize (T l (or_introl eq_refl)). destruct l as [|a [|b [|d [|e r]]]]; try reflexivity. cbn [length] in T. lia.
Qed.

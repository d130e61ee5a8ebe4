(** PLY files: vertices that are not there, limits, and files that are misread. *)
From Coq Require Import Ascii String List ZArith Lia Lra Reals.
From Verif Require Import Base SpecPly ModelPly FactsStl FactsPly FactsPly2 FactsPly3.
Import ListNotations.
Open Scope list_scope.
Open Scope R_scope.

Lemma ply_to_faces c junk f lt v g es lines ds rest vs : document lt v (Some g) es -> header f es lines -> body c f es ds -> positions_or_first v vs ->
  exists p d7 d8 post, zPH3DReadFilePLY c junk lines (ds ++ rest) = zPH3DFReadPLYData c (fmt f) p (pe_of ZFACE g :: map (fun e => pe_of (etf e) e) post) junk (PH vs []) (d7 ++ d8 ++ rest) /\
    list_types p (el_props g) /\ rows c f (el_props g) (el_rows g) d7.
Proof.
  intros (L5 & LIM & NV & NUM & pre & mid & FP & FM & G) H B P.
  assert (NV' : named v /\ etf v = ZVERTEX) by (unfold named, etf; rewrite NV; split; reflexivity). destruct NV' as [NV1 NV2].
  destruct G as (NG & post & FO & ES0). set (tail := g :: post).
  assert (ES : es = pre ++ v :: mid ++ tail) by exact ES0.
  assert (TL : named g /\ etf g = ZFACE /\ exists post, Forall read_over post /\ tail = g :: post).
  { unfold named, etf. rewrite NG. repeat split. exists post. split; [exact FO|reflexivity]. }
  clear ES0 FO NG. clearbody tail. clear post.
  assert (NT : Forall not_vertex tail).
  { destruct TL as (_ & EG & post & FO & ->). constructor; [unfold not_vertex; rewrite EG; reflexivity|].
    eapply Forall_impl; [|exact FO]. intros e RO. apply (read_over_type e RO). }
  assert (NN : forall e, List.In e es -> named e /\ in_limits e).
  { intros e I. split; [|apply LIM; exact I]. rewrite ES in I. apply in_app_or in I. destruct I as [I|[<-|I]].
    - rewrite Forall_forall in FP. apply (read_over_type e (FP e I)).
    - exact NV1.
    - apply in_app_or in I. destruct I as [I|I]; [rewrite Forall_forall in FM; apply (read_over_type e (FM e I))|].
      destruct TL as (NG & _ & post & FO & ->). destruct I as [<-|I]; [exact NG|]. rewrite Forall_forall in FO. apply (read_over_type e (FO e I)). }
  destruct (read_header f es lines H NN L5) as (more & -> & RH).
  assert (UV : forall name, updv name es 0 = upd name 0 (el_props v) 0).
  { intros name. rewrite ES, updv_app. rewrite (updv_other name pre) by (eapply Forall_impl; [|exact FP]; intros e RO; apply (read_over_type e RO)).
    change (v :: mid ++ tail) with ([v] ++ mid ++ tail). rewrite !updv_app. rewrite (updv_other name tail NT).
    rewrite (updv_other name mid) by (eapply Forall_impl; [|exact FM]; intros e RO; apply (read_over_type e RO)).
    unfold updv. cbn [fold_left]. rewrite NV2. reflexivity. }
  rewrite !UV in RH.
  set (p := PLY (Some (fmt f)) (map (fun e => pe_of (etf e) e) es) (upd "x" 0 (el_props v) 0) (upd "y" 0 (el_props v) 0) (upd "z" 0 (el_props v) 0) (updls fst es None) (updls snd es None)) in *.
  assert (LT : forall e, List.In e es -> list_types p (el_props e)).
  { intros e I. unfold p. apply (lists_known lt); [intros e' I'; apply LIM; exact I'|exact I]. }
  assert (VS : map (fun r => V3 (pick (p_x p) 0 r (vx junk)) (pick (p_y p) 0 r (vy junk)) (pick (p_z p) 0 r (vz junk))) (el_rows v) = vs).
  { unfold p. cbn [p_x p_y p_z]. unfold positions_or_first in P. revert P. clear. generalize (el_rows v) as rs. intros rs P. induction P as [|r [a b d] rs vs (X & Y & Z0) P IH]; [reflexivity|]. cbn [map]. rewrite IH. f_equal.
    cbn [vx vy vz] in *. f_equal; eapply pick_value; assumption. }
  unfold zPH3DReadFilePLY. change (String.prefix "ply" "ply") with true. cbv iota. rewrite RH. unfold p at 1 3. cbn [p_format p_elem]. fold p.
  rewrite ES in B. destruct (body_app c f pre _ _ B) as (d1 & d2 & -> & B1 & B2). destruct (body_cons c f v _ _ B2) as (d3 & d4 & -> & RV & B3). destruct (body_app c f mid _ _ B3) as (d5 & d6 & -> & B5 & B6).
  rewrite ES, !map_app. rewrite <- !app_assoc. rewrite (data_over c junk f p pre _ _ _ _ FP); [|intros e I; apply LT; rewrite ES; apply in_or_app; left; exact I|exact B1].
  cbn [map app zPH3DFReadPLYData]. unfold pe_of at 1. cbn [pe_type]. rewrite NV2. rewrite vert_data; [|exact RV|exact NUM]. rewrite VS.
  rewrite map_app. rewrite (data_over c junk f p mid _ _ _ _ FM); [|intros e I; apply LT; rewrite ES; apply in_or_app; right; right; apply in_or_app; left; exact I|exact B5].
  destruct TL as (NG & EG & post & FO & TE). subst tail. destruct (body_cons c f g _ _ B6) as (d7 & d8 & -> & RG & B8).
  exists p, d7, d8, post. split; [cbn [map]; rewrite EG, <- !app_assoc; reflexivity|]. split; [|exact RG].
  apply LT. rewrite ES. apply in_or_app. right. right. apply in_or_app. right. left. reflexivity.
Qed.

Lemma face_elem_bad c junk f p g es vs d rest : list_types p (el_props g) -> rows c f (el_props g) (el_rows g) d -> (exists l, List.In l (polygons g) /\ beyond (length vs) l) ->
  zPH3DFReadPLYData c (fmt f) p (pe_of ZFACE g :: es) junk (PH vs []) (d ++ rest) = None.
Proof.
  intros LT R BY. cbn [zPH3DFReadPLYData pe_of pe_type]. unfold zPH3DFReadPLYFace, pe_of. cbn [pe_num pe_prp pverts]. rewrite Nat2Z.id.
  rewrite (count_rows c f p _ _ _ R LT), (face_rows_bad c f p vs _ _ _ R LT BY). reflexivity.
Qed.
Lemma ply_beyond : forall c junk f lt v g es lines ds rest vs l, document lt v (Some g) es -> header f es lines -> body c f es ds -> positions v vs ->
  List.In l (polygons g) -> (3 <= length l)%nat -> (exists i, List.In i l /\ (length vs <= i)%nat) -> zPH3DReadFilePLY c junk lines (ds ++ rest) = None.
Proof.
  intros c junk f lt v g es lines ds rest vs l D H B P I L BY.
  destruct (ply_to_faces c junk f lt v g es lines ds rest vs D H B (positions_first _ _ P)) as (p & d7 & d8 & post & E & LT & R).
  rewrite E. apply face_elem_bad; [exact LT|exact R|]. exists l. split; [exact I|]. split; assumption.
Qed.
Lemma known_named e : known_name (el_name e) -> named e.
Proof. unfold known_name, named, etf. cbn [List.In]. intros [E|[E|[E|[E|[E|[]]]]]]; rewrite <- E; reflexivity. Qed.
Lemma ply_faces_first : forall c junk f lt pre g post lines ds rest l, Forall read_over pre -> el_name g = "face"%string ->
  (forall e, List.In e (pre ++ g :: post) -> known_name (el_name e) /\ in_limits e /\ lists_are lt e) -> (length (pre ++ g :: post) <= 5)%nat ->
  header f (pre ++ g :: post) lines -> body c f (pre ++ g :: post) ds -> List.In l (polygons g) -> (3 <= length l)%nat ->
  zPH3DReadFilePLY c junk lines (ds ++ rest) = None.
Proof.
  intros c junk f lt pre g post lines ds rest l FP NG K L5 H B I L.
  destruct (read_header f _ lines H) as (more & -> & RH); [intros e J; split; [apply known_named|]; apply (K e J)|exact L5|].
  unfold zPH3DReadFilePLY. change (String.prefix "ply" "ply") with true. cbv iota. rewrite RH. cbn [p_format p_elem].
  match goal with |- context[zPH3DFReadPLYData c (fmt f) ?q] => set (p := q) end.
  assert (LT : forall e, List.In e (pre ++ g :: post) -> list_types p (el_props e)).
  { intros e J. unfold p. apply (lists_known lt); [intros e' J'; apply (K e' J')|exact J]. }
  destruct (body_app c f pre _ _ B) as (d1 & d2 & -> & B1 & B2). destruct (body_cons c f g _ _ B2) as (d3 & d4 & -> & RG & B3).
  rewrite map_app, <- !app_assoc. rewrite (data_over c junk f p pre _ _ _ _ FP); [|intros e J; apply LT; apply in_or_app; left; exact J|exact B1].
  cbn [map]. assert (EG : etf g = ZFACE) by (unfold etf; rewrite NG; reflexivity). rewrite EG. apply face_elem_bad; [apply LT; apply in_or_app; right; left; reflexivity|exact RG|].
  exists l. split; [exact I|]. split; [exact L|]. destruct l as [|a l]; [cbn [length] in L; lia|]. exists a. split; [left; reflexivity|cbn [length]; lia].
Qed.

(** limits of the reader *)
Lemma split_at_11 {A} (l : list A) : (12 <= length l)%nat -> exists ps p qs, l = ps ++ p :: qs /\ length ps = 11%nat.
Proof.
  intros L. assert (K := firstn_skipn 11 l). assert (LF : length (firstn 11 l) = 11%nat) by (rewrite firstn_length; lia).
  destruct (skipn 11 l) as [|p qs] eqn:E; [assert (W : length (skipn 11 l) = 0%nat) by (rewrite E; reflexivity); rewrite skipn_length in W; lia|].
  exists (firstn 11 l), p, qs. split; [symmetry; exact K|exact LF].
Qed.
Lemma prop_12 p : forall f es et n pre x y z ln le more, known_prop p -> (11 <= length pre)%nat ->
  zPLYFReadHeader (property_line p :: more) (PLY (Some f) (es ++ [PE et n pre]) x y z ln le) = Some None.
Proof.
  intros f es et n pre x y z ln le more K L. assert (NL : Nat.leb 12 (Datatypes.S (length pre)) = true) by (apply Nat.leb_le; lia).
  destruct p as [t name|tn t]; cbn [property_line zPLYFReadHeader nextWord];
    change (hword_is (HW "property") "end_header") with false; change (hword_is (HW "property") "format") with false;
    change (hword_is (HW "property") "element") with false; change (hword_is (HW "property") "property") with true; cbv iota;
    unfold zPLYFReadProperty; cbn [p_elem p_format p_x p_y p_z p_listnum p_listelem nextWord]; rewrite last_elem.
  - destruct (dtf_not_list t K) as [A B]. rewrite A. cbv zeta. cbn [pe_type pe_num pe_prp]. rewrite NL.
    destruct (dtf t) eqn:DT; try congruence; destruct et; cbn [hword_is]; try reflexivity; destruct (String.eqb name "x"); try reflexivity; destruct (String.eqb name "y"); try reflexivity; destruct (String.eqb name "z"); reflexivity.
  - change (zPLYPrpFind (HW "list")) with (Some ZLIST). cbv iota zeta. cbn [pe_type pe_num pe_prp].
    change (hword_is (HW "vertex_indices") "vertex_indices") with true. cbv iota. rewrite NL. reflexivity.
Qed.
Lemma ply_properties : forall c junk f pre e post lines ds, (forall a, List.In a pre -> known_name (el_name a) /\ in_limits a) -> (length pre < 5)%nat -> known_name (el_name e) ->
  (forall p, List.In p (el_props e) -> match p with Number t _ => known t | Indices tn t => known tn /\ known t end) -> (12 <= length (el_props e))%nat ->
  header f (pre ++ e :: post) lines -> zPH3DReadFilePLY c junk lines ds = Some None.
Proof.
  intros c junk f pre e post lines ds KP L5 KN K L (more & -> & F).
  unfold zPH3DReadFilePLY. change (String.prefix "ply" "ply") with true. cbv iota. rewrite header_filter, F. cbn [app].
  cbn [zPLYFReadHeader nextWord].
  change (hword_is (HW "format") "end_header") with false. change (hword_is (HW "format") "format") with true. cbv iota.
  assert (Q : zPLYFReadFormat zPLYInit [HW (format_name f); HW "1.0"] = Some (PLY (Some (fmt f)) [] 0 0 0 None None)) by (destruct f; reflexivity).
  rewrite Q. rewrite flat_map_app, <- app_assoc, read_elements; [|intros a A; split; [apply known_named|]; apply (KP a A)|cbn [length]; lia].
  cbn [flat_map element_lines app]. cbn [zPLYFReadHeader nextWord].
  change (hword_is (HW "element") "end_header") with false. change (hword_is (HW "element") "format") with false.
  change (hword_is (HW "element") "element") with true. cbv iota.
  unfold zPLYFReadElement. cbn [p_elem p_format p_x p_y p_z p_listnum p_listelem nextWord]. rewrite map_length.
  destruct (Nat.leb_spec 5 (length pre)) as [W|_]; [lia|]. cbv iota. rewrite (known_named e KN). cbv iota.
  destruct (split_at_11 (el_props e) L) as (ps & p & qs & E & LP). rewrite E in K |- *. rewrite map_app, <- !app_assoc.
  rewrite read_props; [|intros q J; apply (K q); apply in_or_app; left; exact J|cbn [length]; lia]. cbn [map app length].
  rewrite prop_12; [reflexivity|apply (K p); apply in_or_app; right; left; reflexivity|rewrite map_length; lia].
Qed.
Lemma ply_elements : forall c junk f pre e post lines ds, (forall a, List.In a pre -> known_name (el_name a) /\ in_limits a) -> length pre = 5%nat ->
  header f (pre ++ e :: post) lines -> zPH3DReadFilePLY c junk lines ds = Some None.
Proof.
  intros c junk f pre e post lines ds KP L5 (more & -> & F).
  unfold zPH3DReadFilePLY. change (String.prefix "ply" "ply") with true. cbv iota. rewrite header_filter, F. cbn [app].
  cbn [zPLYFReadHeader nextWord].
  change (hword_is (HW "format") "end_header") with false. change (hword_is (HW "format") "format") with true. cbv iota.
  assert (Q : zPLYFReadFormat zPLYInit [HW (format_name f); HW "1.0"] = Some (PLY (Some (fmt f)) [] 0 0 0 None None)) by (destruct f; reflexivity).
  rewrite Q. rewrite flat_map_app, <- app_assoc, read_elements; [|intros a A; split; [apply known_named|]; apply (KP a A)|cbn [length]; lia].
  cbn [flat_map element_lines app]. cbn [zPLYFReadHeader nextWord].
  change (hword_is (HW "element") "end_header") with false. change (hword_is (HW "element") "format") with false.
  change (hword_is (HW "element") "element") with true. cbv iota.
  unfold zPLYFReadElement. cbn [p_elem]. rewrite map_length, L5. reflexivity.
Qed.

(** a coordinate that the file does not give is the first number of the row *)
Lemma ply_missing : forall c junk f lt v g es lines ds rest vs, document lt v g es -> header f es lines -> body c f es ds -> lacks (el_props v) "z" ->
  Forall2 (fun r p => value (el_props v) r "x" (vx p) /\ value (el_props v) r "y" (vy p) /\ nth_error r 0 = Some (CNumber (vz p))) (el_rows v) vs ->
  all_below (length vs) (polygons_opt g) ->
  exists fs, zPH3DReadFilePLY c junk lines (ds ++ rest) = Some (Some (PH vs fs)).
Proof.
  intros c junk f lt v g es lines ds rest vs D H B LK P A.
  assert (P' : positions_or_first v vs).
  { unfold positions_or_first. clear - P LK. induction P as [|r p rs ps (X & Y & Z0) P IH]; constructor; [|exact IH].
    unfold value_or_first. auto. }
  destruct (ply_or_first c junk f lt v g es lines ds rest vs D H B P' A) as (fs & E & _). exists fs. exact E.
Qed.

(** files that are misread *)
Definition zeros : list Z := [0; 0; 0; 0]%Z.
Definition three_elem (c : codes) : element := vert_elem (repeat (V3 (four c zeros) (four c zeros) (four c zeros)) 3).
Definition one_face : element := Element "face" [Indices "uchar" "int"] [[CIndices [0; 1; 2]%nat]].
Definition grid_int : element := Element "range_grid" [Indices "uchar" "int"] [[CIndices [0]%nat]].
Definition grid_uchar : element := Element "range_grid" [Indices "uchar" "uchar"] [].
Definition three_data : list datum := map DB (repeat 0%Z 36).
Definition face_data : list datum := map DB ([3] ++ low_first 4 0 ++ low_first 4 1 ++ low_first 4 2)%Z.
Definition grid_data : list datum := map DB ([1] ++ low_first 4 0)%Z.
Definition lines_of (f : ply_format) (es : list element) : list (list hword) :=
  [[HW "ply"]; [HW "format"; HW (format_name f); HW "1.0"]]%string ++ flat_map element_lines es ++ [[HW "end_header"]]%string.
Lemma keep_keys es : filter keyword_line (flat_map element_lines es) = flat_map element_lines es.
Proof.
  induction es as [|e es IH]; [reflexivity|]. cbn [flat_map]. rewrite filter_app, IH. f_equal. unfold element_lines. cbn [filter]. change (keyword_line _) with true. cbv iota. f_equal.
  induction (el_props e) as [|p ps IHp]; [reflexivity|]. cbn [map filter]. rewrite IHp. destruct p; reflexivity.
Qed.
Lemma lines_header f es : header f es (lines_of f es).
Proof. unfold header, lines_of. eexists. split; [reflexivity|]. cbn [filter]. change (keyword_line _) with true. cbv iota. rewrite filter_app, keep_keys. reflexivity. Qed.
Lemma three_rows c : rows c PLittle (el_props (three_elem c)) (el_rows (three_elem c)) three_data.
Proof.
  assert (R : row c PLittle (el_props (three_elem c)) [CNumber (four c zeros); CNumber (four c zeros); CNumber (four c zeros)] (map DB zeros ++ map DB zeros ++ map DB zeros ++ [])).
  { econstructor; [reflexivity|apply DN_little_single; reflexivity|]. econstructor; [reflexivity|apply DN_little_single; reflexivity|]. econstructor; [reflexivity|apply DN_little_single; reflexivity|]. constructor. }
  exact (RS_cons _ _ _ _ _ _ _ R (RS_cons _ _ _ _ _ _ _ R (RS_cons _ _ _ _ _ _ _ R (RS_nil _ _ _)))).
Qed.
Lemma one_face_rows c : rows c PLittle (el_props one_face) (el_rows one_face) face_data.
Proof.
  assert (R : row c PLittle (el_props one_face) [CIndices [0; 1; 2]%nat] (map DB (low_first 1 3) ++ concat [map DB (low_first 4 (Z.of_nat 0)); map DB (low_first 4 (Z.of_nat 1)); map DB (low_first 4 (Z.of_nat 2))] ++ [])).
  { econstructor; [reflexivity|reflexivity|apply (DN_little_int _ 1 3); cbn; lia| |constructor]. repeat constructor; cbn; lia. }
  exact (RS_cons _ _ _ _ _ _ _ R (RS_nil _ _ _)).
Qed.
Lemma grid_int_rows c : rows c PLittle (el_props grid_int) (el_rows grid_int) grid_data.
Proof.
  assert (R : row c PLittle (el_props grid_int) [CIndices [0]%nat] (map DB (low_first 1 1) ++ concat [map DB (low_first 4 (Z.of_nat 0))] ++ [])).
  { econstructor; [reflexivity|reflexivity|apply (DN_little_int _ 1 1); cbn; lia| |constructor]. repeat constructor; cbn; lia. }
  exact (RS_cons _ _ _ _ _ _ _ R (RS_nil _ _ _)).
Qed.
Lemma ply_grid_refuted : forall c junk, exists v grid g lines ds vs,
  header PLittle [v; grid; g] lines /\ body c PLittle [v; grid; g] ds /\ positions v vs /\ length vs = 3%nat /\ el_name grid = "range_grid"%string /\ polygons g = [[0; 1; 2]%nat] /\
  zPH3DReadFilePLY c junk lines ds = Some (Some (PH vs [])).
Proof.
  intros c junk. exists (three_elem c), grid_int, one_face, (lines_of PLittle [three_elem c; grid_int; one_face]), (three_data ++ grid_data ++ face_data ++ []), (repeat (V3 (four c zeros) (four c zeros) (four c zeros)) 3).
  split; [apply lines_header|]. split; [constructor; [apply three_rows|]; constructor; [apply grid_int_rows|]; constructor; [apply one_face_rows|]; constructor|].
  split; [apply xyz_positions|]. split; [reflexivity|]. split; [reflexivity|]. split; [reflexivity|]. cbv -[four zTri3DCreate tnorm]. reflexivity.
Qed.
Lemma ply_types_refuted : forall c junk, exists v g grid lines ds vs n,
  header PLittle [v; g; grid] lines /\ body c PLittle [v; g; grid] ds /\ positions v vs /\ length vs = 3%nat /\ el_name grid = "range_grid"%string /\ polygons g = [[0; 1; 2]%nat] /\
  zPH3DReadFilePLY c junk lines ds = Some (Some (PH vs [FC 0 0 0 n])).
Proof.
  intros c junk. exists (three_elem c), one_face, grid_uchar, (lines_of PLittle [three_elem c; one_face; grid_uchar]), (three_data ++ face_data ++ [] ++ []), (repeat (V3 (four c zeros) (four c zeros) (four c zeros)) 3). eexists.
  split; [apply lines_header|]. split; [constructor; [apply three_rows|]; constructor; [apply one_face_rows|]; constructor; [constructor|]; constructor|].
  split; [apply xyz_positions|]. split; [reflexivity|]. split; [reflexivity|]. split; [reflexivity|]. cbv -[four zTri3DCreate tnorm]. reflexivity.
Qed.

(** the unit square as one polygon *)
Definition square_points : list vec3 := [V3 0 0 0; V3 1 0 0; V3 1 1 0; V3 0 1 0].
Definition square_elem : element := Element "face" [Indices "uchar" "int"] [[CIndices [0; 1; 2; 3]%nat]].
Definition square_data : list datum :=
  flat_map (fun v => [DW (vx v)] ++ [DW (vy v)] ++ [DW (vz v)] ++ []) square_points ++ ([DW (IZR 4)] ++ concat [[DW (IZR 0)]; [DW (IZR 1)]; [DW (IZR 2)]; [DW (IZR 3)]] ++ []) ++ [].
Lemma square_document : document ("uchar", "int")%string (vert_elem square_points) (Some square_elem) [vert_elem square_points; square_elem].
Proof.
  destruct (written_document square_points []) as (A & B & D & E & F). split; [exact A|]. split.
  - intros e [<-|[<-|[]]]; [apply B; left; reflexivity|]. exact (B _ (or_intror (or_introl eq_refl))).
  - split; [exact D|]. split; [exact E|]. exists [], []. split; [constructor|]. split; [constructor|]. split; [reflexivity|]. exists []. split; [constructor|reflexivity].
Qed.
Lemma square_body c : body c PText [vert_elem square_points; square_elem] (square_data ++ []).
Proof.
  unfold square_data. rewrite (app_nil_r (_ ++ _)). constructor; [|constructor; [|constructor]].
  - cbn [vert_elem el_props el_rows]. induction square_points as [|v vs IH]; cbn [map flat_map]; constructor; [|exact IH].
    econstructor; [reflexivity|constructor|]. econstructor; [reflexivity|constructor|]. econstructor; [reflexivity|constructor|]. constructor.
  - assert (R : row c PText (el_props square_elem) [CIndices [0; 1; 2; 3]%nat] ([DW (IZR 4)] ++ concat [[DW (IZR 0)]; [DW (IZR 1)]; [DW (IZR 2)]; [DW (IZR 3)]] ++ [])).
    { econstructor; [reflexivity|reflexivity|exact (DN_text_int c 1 4)| |constructor]. repeat constructor. }
    exact (RS_cons _ _ _ _ _ _ _ R (RS_nil _ _ _)).
Qed.
Lemma ply_square_refuted : forall c junk, exists v g es lines ds ph p,
  document ("uchar", "int")%string v (Some g) es /\ header PText es lines /\ body c PText es ds /\ positions v square_points /\ polygons g = [[0; 1; 2; 3]%nat] /\
  zPH3DReadFilePLY c junk lines ds = Some (Some ph) /\
  in_triangle (V3 0 0 0) (V3 1 1 0) (V3 0 1 0) p /\
  forall f a b d, List.In f (ph_faces ph) -> triangle_of (pverts ph) f (a, b, d) -> ~ in_triangle a b d p.
Proof.
  intros c junk. exists (vert_elem square_points), square_elem, [vert_elem square_points; square_elem], (lines_of PText [vert_elem square_points; square_elem]), (square_data ++ []).
  destruct (ply_reads c junk PText _ _ _ _ _ _ [] square_points square_document (lines_header PText _) (square_body c) (xyz_positions _)) as (fs & E & F & _).
  { intros l i [<-|[]] I. cbn in I |- *. lia. }
  rewrite app_nil_r in E. exists (PH square_points fs), (V3 (1/2) (3/4) 0).
  split; [exact square_document|]. split; [apply lines_header|]. split; [apply square_body|]. split; [apply xyz_positions|]. split; [reflexivity|]. split; [exact E|]. split.
  - exists (1/4), (1/2), (1/4). split; [unfold weights3; lra|]. apply vec3_ext; unfold comb3, comb2, vscale, vadd; cbn [vx vy vz]; lra.
  - assert (Q : ph_faces (PH square_points fs) = [(0, 1, 2); (0, 1, 3)]%nat) by (transitivity (map fst (map face_key fs)); [rewrite map_map; reflexivity|exact F]).
    intros f a b d I T. rewrite Q in I. destruct I as [<-|[<-|[]]]; cbn in T; destruct T as (A & B & D); injection A as <-; injection B as <-; injection D as <-;
      intros (s0 & s1 & s2 & W & P); unfold weights3 in W; unfold comb3, comb2, vscale, vadd in P; cbn [vx vy vz] in P; injection P as P1 P2 P3; lra.
Qed.

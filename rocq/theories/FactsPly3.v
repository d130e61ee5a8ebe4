(** PLY files: what is written is read back; what goes wrong. *)
From Coq Require Import Ascii String List ZArith Lia Lra Reals.
From Verif Require Import Base SpecPly ModelPly FactsStl FactsPly FactsPly2.
Import ListNotations.
Open Scope list_scope.
Open Scope R_scope.

(** ** round trip *)
Definition vert_elem (vs : list vec3) : element :=
  Element "vertex" [Number "float" "x"; Number "float" "y"; Number "float" "z"] (map (fun v => [CNumber (vx v); CNumber (vy v); CNumber (vz v)]) vs).
Definition face_elem (ts : list (nat * nat * nat)) : element :=
  Element "face" [Indices "uchar" "int"] (map (fun t => let '(i, j, k) := t in [CIndices [i; j; k]]) ts).

Lemma xyz_positions vs : positions (vert_elem vs) vs.
Proof.
  unfold positions, vert_elem. cbn [el_rows el_props]. induction vs as [|v vs IH]; cbn [map]; constructor; [|exact IH].
  repeat split; [exists 0%nat|exists 1%nat|exists 2%nat]; (split; [split; [eexists; reflexivity|]|reflexivity]);
    intros [|[|[|i]]] t E; try reflexivity; try discriminate E; destruct i; discriminate E.
Qed.
Lemma face_polygons ts : polygons (face_elem ts) = map (fun t => let '(i, j, k) := t in [i; j; k]) ts.
Proof. unfold polygons, face_elem. cbn [el_rows]. induction ts as [|[[i j] k] ts IH]; cbn [map flat_map]; [reflexivity|]. rewrite IH. reflexivity. Qed.
Lemma fan_triples ts : flat_map fan (map (fun t => let '(i, j, k) := t in [i; j; k]) ts) = ts.
Proof. induction ts as [|[[i j] k] ts IH]; cbn [map flat_map]; [reflexivity|]. rewrite IH. reflexivity. Qed.
Lemma written_document vs ts : document ("uchar", "int")%string (vert_elem vs) (Some (face_elem ts)) [vert_elem vs; face_elem ts].
Proof.
  assert (KF : known "float") by (exists KFloat; reflexivity). assert (KU : known "uchar") by (exists (KInt 1); reflexivity). assert (KI : known "int") by (exists (KInt 4); reflexivity).
  split; [cbn; lia|]. split.
  - intros e [<-|[<-|[]]]; (split; [split; [cbn; lia|]|]); intros p.
    + intros [<-|[<-|[<-|[]]]]; exact KF.
    + intros t [E|[E|[E|[]]]]; discriminate E.
    + intros [<-|[]]. split; assumption.
    + intros t [E|[]]. injection E as <- <-. reflexivity.
  - split; [reflexivity|]. split; [intros p [<-|[<-|[<-|[]]]]; eauto|]. exists [], []. split; [constructor|]. split; [constructor|]. split; [reflexivity|]. exists []. split; [constructor|reflexivity].
Qed.
Lemma written_header f ph g : (match f with PText => "ascii" | PLittle => "binary_little_endian" | PBig => "binary_big_endian" end)%string = format_name f ->
  header f [vert_elem (map g (pverts ph)); face_elem (ph_faces ph)] (zPH3DFWritePLYHeader ph (format_name f)).
Proof.
  intros _. unfold header, zPH3DFWritePLYHeader. eexists. split; [reflexivity|]. cbn [flat_map element_lines vert_elem face_elem el_name el_rows el_props map property_line app].
  rewrite !map_length. unfold ph_faces. rewrite map_length. reflexivity.
Qed.

Definition all_faces_below (n : nat) (ts : list (nat * nat * nat)) : Prop := forall i j k, List.In (i, j, k) ts -> (i < n)%nat /\ (j < n)%nat /\ (k < n)%nat.
Lemma triples_below n ts : indices_below n ts -> all_below n (map (fun t => let '(i, j, k) := t in [i; j; k]) ts).
Proof.
  unfold indices_below. rewrite Forall_forall. intros H l i I J. apply in_map_iff in I. destruct I as ([[a b] d] & <- & I). specialize (H _ I). cbn in H. destruct J as [<-|[<-|[<-|[]]]]; tauto.
Qed.
Lemma written_back c junk f ph g ds rest : body c f [vert_elem (map g (pverts ph)); face_elem (ph_faces ph)] ds -> indices_below (length (pverts ph)) (ph_faces ph) ->
  exists fs, zPH3DReadFilePLY c junk (zPH3DFWritePLYHeader ph (format_name f)) (ds ++ rest) = Some (Some (PH (map g (pverts ph)) fs)) /\
  faces_are (map g (pverts ph)) (map face_key fs) (ph_faces ph).
Proof.
  intros B I.
  destruct (ply_triangles c junk f _ _ _ _ _ _ rest _ (written_document (map g (pverts ph)) (ph_faces ph)) (written_header f ph g (match f with PText => eq_refl | PLittle => eq_refl | PBig => eq_refl end)) B (xyz_positions _)) as (fs & E & F).
  - cbn [polygons_opt]. rewrite face_polygons, map_length. apply triples_below. exact I.
  - cbn [polygons_opt]. rewrite face_polygons. intros l J. apply in_map_iff in J. destruct J as ([[a b] d] & <- & _). cbn. lia.
  - exists fs. split; [exact E|]. cbn [polygons_opt] in F. rewrite face_polygons, fan_triples in F. exact F.
Qed.

Lemma ply_text : forall c junk pr ph rest, indices_below (length (pverts ph)) (ph_faces ph) ->
  let '(lines, ds) := zPH3DWriteFilePLY_ASCII pr ph in
  exists fs, zPH3DReadFilePLY c junk lines (ds ++ rest) = Some (Some (PH (map (each pr) (pverts ph)) fs)) /\ faces_are (map (each pr) (pverts ph)) (map face_key fs) (ph_faces ph).
Proof.
  intros c junk pr ph rest I. unfold zPH3DWriteFilePLY_ASCII. change "ascii"%string with (format_name PText). apply written_back; [|exact I].
  unfold zPH3DFWritePLYDataASCII. constructor; [|rewrite <- app_nil_r; constructor; [|constructor]].
  - cbn [vert_elem el_props el_rows]. clear I. induction (pverts ph) as [|v vs IH]; cbn [map flat_map]; constructor; [|exact IH].
    change [DW (pr (vx v)); DW (pr (vy v)); DW (pr (vz v))] with ([DW (pr (vx v))] ++ [DW (pr (vy v))] ++ [DW (pr (vz v))] ++ []).
    econstructor; [reflexivity|constructor|]. econstructor; [reflexivity|constructor|]. econstructor; [reflexivity|constructor|]. constructor.
  - cbn [face_elem el_props el_rows]. unfold ph_faces. clear I. induction (pfaces ph) as [|t ts IH]; cbn [map flat_map]; constructor; [|exact IH].
    rewrite !INR_IZR_INZ.
    change [DW 3; DW (IZR (Z.of_nat (fi0 t))); DW (IZR (Z.of_nat (fi1 t))); DW (IZR (Z.of_nat (fi2 t)))] with ([DW (IZR 3)] ++ concat [[DW (IZR (Z.of_nat (fi0 t)))]; [DW (IZR (Z.of_nat (fi1 t)))]; [DW (IZR (Z.of_nat (fi2 t)))]] ++ []).
    econstructor; [reflexivity|reflexivity|exact (DN_text_int c 1 3)| |constructor]. repeat constructor.
Qed.
Lemma le32_low n : le32 n = low_first 4 n.
Proof. unfold le32. cbn [low_first]. rewrite !Z.div_div by lia. reflexivity. Qed.
Lemma ply_binary : forall cd eight8 junk ph rest, four_bytes cd -> indices_below (length (pverts ph)) (ph_faces ph) -> (Z.of_nat (length (pverts ph)) <= 2147483648)%Z ->
  let '(lines, ds) := zPH3DWriteFilePLY_Bin (fenc cd) ph in
  exists fs, zPH3DReadFilePLY (Codes (fdec cd) eight8) junk lines (ds ++ rest) = Some (Some (PH (map (each (recoded cd)) (pverts ph)) fs)) /\
  faces_are (map (each (recoded cd)) (pverts ph)) (map face_key fs) (ph_faces ph).
Proof.
  intros cd eight8 junk ph rest L4 I N. unfold zPH3DWriteFilePLY_Bin. change "binary_little_endian"%string with (format_name PLittle). apply written_back; [|exact I].
  unfold zPH3DFWritePLYDataBin. rewrite map_app. constructor; [|rewrite <- app_nil_r; constructor; [|constructor]].
  - cbn [vert_elem el_props el_rows]. clear I N. induction (pverts ph) as [|v vs IH]; cbn [map flat_map]; [constructor|]. rewrite map_app. constructor; [|exact IH].
    rewrite !map_app. rewrite <- (app_nil_r (map DB (fenc cd (vz v)))).
    econstructor; [reflexivity|apply (DN_little_single (Codes (fdec cd) eight8)), L4|]. econstructor; [reflexivity|apply (DN_little_single (Codes (fdec cd) eight8)), L4|]. econstructor; [reflexivity|apply (DN_little_single (Codes (fdec cd) eight8)), L4|]. constructor.
  - cbn [face_elem el_props el_rows]. unfold indices_below, ph_faces in *. induction (pfaces ph) as [|t ts IH]; cbn [map flat_map]; [constructor|]. inversion I as [|? ? I1 I2]; subst. rewrite map_app. constructor; [|apply IH; exact I2].
    rewrite !le32_low, !map_app.
    change (map DB [3%Z] ++ map DB (low_first 4 (Z.of_nat (fi0 t))) ++ map DB (low_first 4 (Z.of_nat (fi1 t))) ++ map DB (low_first 4 (Z.of_nat (fi2 t))))
      with (map DB (low_first 1 3) ++ concat [map DB (low_first 4 (Z.of_nat (fi0 t))); map DB (low_first 4 (Z.of_nat (fi1 t))); map DB (low_first 4 (Z.of_nat (fi2 t)))] ++ []).
    econstructor; [reflexivity|reflexivity|apply (DN_little_int _ 1 3); cbn; lia| |constructor].
    destruct I1 as (A & B & D). repeat constructor; try lia; change (256 ^ Z.of_nat 4)%Z with 4294967296%Z; lia.
Qed.

(** ** what goes wrong *)
Lemma count_app {A} (x : A) l1 l2 l3 : ~ NoDup (l1 ++ x :: l2 ++ x :: l3).
Proof. intros H. apply NoDup_remove_2 in H. apply H. apply in_or_app. right. apply in_or_app. right. left. reflexivity. Qed.
Lemma first_side_twice l : (4 <= length l)%nat -> forall u w, ~ NoDup (all_sides (u ++ on_first_side l ++ w)).
Proof.
  intros L u w. destruct l as [|a [|b [|d [|e r]]]]; cbn [length] in L; try lia. unfold all_sides. rewrite flat_map_app. cbn [on_first_side map app flat_map sides].
  change ((a, b) :: (b, d) :: (d, a) :: (a, b) :: ?X) with ((a, b) :: [(b, d); (d, a)] ++ (a, b) :: X). apply count_app.
Qed.
Lemma ply_polygons_refuted : forall c junk f lt v g es lines ds rest vs l, document lt v g es -> header f es lines -> body c f es ds -> positions v vs -> all_below (length vs) (polygons_opt g) ->
  List.In l (polygons_opt g) -> (4 <= length l)%nat ->
  exists ph, zPH3DReadFilePLY c junk lines (ds ++ rest) = Some (Some ph) /\ ~ NoDup (all_sides (ph_faces ph)) /\ ~ oriented (ph_faces ph).
Proof.
  intros c junk f lt v g es lines ds rest vs l D H B P A I L. destruct (ply_reads c junk f lt v g es lines ds rest vs D H B P A) as (fs & E & F & _).
  exists (PH vs fs). split; [exact E|]. assert (Q : ph_faces (PH vs fs) = flat_map on_first_side (polygons_opt g)) by (rewrite <- F, map_map; reflexivity).
  assert (G : ~ NoDup (all_sides (ph_faces (PH vs fs)))).
  { rewrite Q. apply in_split in I. destruct I as (l1 & l2 & ->). rewrite flat_map_app. cbn [flat_map]. apply first_side_twice. exact L. }
  split; [exact G|]. intros [_ O]. exact (G O).
Qed.

(** a polygon that names a vertex that is not there *)
Definition beyond (n : nat) (l : list nat) : Prop := (3 <= length l)%nat /\ exists i, List.In i l /\ (n <= i)%nat.
Lemma make_none vs i j k : (length vs <= i)%nat \/ (length vs <= j)%nat \/ (length vs <= k)%nat -> makeFace vs (Z.of_nat i) (Z.of_nat j) (Z.of_nat k) = None.
Proof.
  intros H. unfold makeFace. destruct (_ || _)%bool; [reflexivity|]. rewrite !Nat2Z.id.
  destruct H as [H|[H|H]]; apply nth_error_None in H; rewrite H; [reflexivity|destruct (nth_error vs i); reflexivity|destruct (nth_error vs i); [|reflexivity]; destruct (nth_error vs j); reflexivity].
Qed.
Lemma make_faces_bad c f k d vs a b l dls : Forall2 (fun i d => denotes c f k (IZR (Z.of_nat i)) d) l dls -> kind_of d = Some k ->
  l <> [] -> (length vs <= a)%nat \/ (length vs <= b)%nat \/ (exists i, List.In i l /\ (length vs <= i)%nat) -> forall nf fs rest,
  makeFaces (length l) c (fmt f) d vs (Z.of_nat a) (Z.of_nat b) (concat dls ++ rest) nf fs = None.
Proof.
  intros F K. induction F as [|i di l dls D DS IH]; intros NE H nf fs rest; [congruence|]. cbn [length makeFaces concat]. rewrite <- app_assoc, (read_int_ok c f k i di d _ D K).
  destruct (makeFace vs (Z.of_nat a) (Z.of_nat b) (Z.of_nat i)) as [fc|] eqn:M; [|reflexivity].
  destruct (Z.ltb _ nf); [|reflexivity]. apply IH.
  - intros ->. destruct H as [H|[H|(i' & [<-|[]] & H)]]; rewrite make_none in M by tauto; discriminate M.
  - destruct H as [H|[H|(i' & [<-|I'] & H)]]; [left; exact H|right; left; exact H|rewrite make_none in M by tauto; discriminate M|right; right; exists i'; auto].
Qed.
Lemma face_row_bad c f p vs ps cs ds : row c f ps cs ds -> list_types p ps -> (exists l, List.In l (polygons_of_row cs) /\ beyond (length vs) l) -> forall nf fs rest,
  faceRow c (fmt f) p (map prp_of ps) vs (ds ++ rest) nf fs = None.
Proof.
  induction 1 as [|t k n x ds ps cs more K D RR IH|tn kn t k l dn dls ps cs more K1 K2 D1 D2 RR IH]; intros LT (lb & I & BY) nf fs rest.
  - destruct I.
  - destruct (find_kind t k K) as [A B]. cbn [map prp_of faceRow]. rewrite <- app_assoc.
    assert (RD := read_double_ok c f k x ds (dtf t) (more ++ rest) D B).
    destruct (dtf t) eqn:T; try (cbn in B; discriminate B); rewrite RD; apply (IH (list_types_tail _ _ _ LT)); exists lb; auto.
  - destruct (find_kind tn kn K1) as [A1 B1]. destruct (find_kind t k K2) as [A2 B2]. destruct (LT tn t (or_introl eq_refl)) as [L1 L2].
    change (polygons_of_row (CIndices l :: cs)) with (l :: polygons_of_row cs) in I.
    cbn [map prp_of faceRow]. rewrite L1, A1, L2, A2, <- !app_assoc. rewrite (read_int_ok c f kn (length l) dn (dtf tn) _ D1 B1).
    assert (IH' : List.In lb (polygons_of_row cs) -> forall fs rest, faceRow c (fmt f) p (map prp_of ps) vs (more ++ rest) nf fs = None).
    { intros J fs' rest'. apply (IH (list_types_tail _ _ _ LT)). exists lb; auto. }
    destruct l as [|a [|b l]].
    + inversion D2; subst. cbn [length concat app]. change (Z.of_nat 0 - 1 <? 0)%Z with true. cbv iota.
      apply IH'. destruct I as [<-|I]; [destruct BY as [BY _]; cbn [length] in BY; lia|exact I].
    + inversion D2 as [|? da ? dls' DA DR]; subst. inversion DR; subst. cbn [length concat app]. rewrite app_nil_r.
      change (Z.of_nat 1 - 1 <? 0)%Z with false. cbv iota. rewrite (read_int_ok c f k a da (dtf t) _ DA B2).
      change (Z.of_nat 1 - 2 <? 0)%Z with true. cbv iota.
      apply IH'. destruct I as [<-|I]; [destruct BY as [BY _]; cbn [length] in BY; lia|exact I].
    + inversion D2 as [|? da ? dls' DA DR]; subst. inversion DR as [|? db ? dls'' DB' DR2]; subst. cbn [concat]. rewrite <- !app_assoc.
      destruct (Z.ltb_spec (Z.of_nat (length (a :: b :: l)) - 1) 0) as [W|_]; [cbn [length] in W; lia|].
      rewrite (read_int_ok c f k a da (dtf t) _ DA B2).
      destruct (Z.ltb_spec (Z.of_nat (length (a :: b :: l)) - 2) 0) as [W|_]; [cbn [length] in W; lia|].
      rewrite (read_int_ok c f k b db (dtf t) _ DB' B2).
      replace (Z.to_nat (Z.of_nat (length (a :: b :: l)) - 2)) with (length l) by (cbn [length]; lia).
      destruct I as [<-|I].
      * rewrite (make_faces_bad c f k (dtf t) vs a b l dls'' DR2 B2); [reflexivity| |].
        -- destruct BY as [BY _]. intros ->. cbn [length] in BY. lia.
        -- destruct BY as (_ & i & [<-|[<-|J]] & Q); [tauto|tauto|right; right; exists i; auto].
      * assert (SK : forall nf fs fs' s', makeFaces (length l) c (fmt f) (dtf t) vs (Z.of_nat a) (Z.of_nat b) (concat dls'' ++ more ++ rest) nf fs = Some (fs', s') -> s' = more ++ rest).
        { clear - DR2 B2. intros nf. revert dls'' DR2. induction l as [|i l IHl]; intros dls'' DR2 fs fs' s'; inversion DR2 as [|? di ? dl2 DI DR3]; subst; cbn [length makeFaces concat app]; [intros E; injection E as _ <-; reflexivity|].
          rewrite <- app_assoc, (read_int_ok c f k i di (dtf t) _ DI B2). destruct (makeFace vs (Z.of_nat a) (Z.of_nat b) (Z.of_nat i)); [|discriminate]. destruct (Z.ltb _ nf); [|discriminate]. apply IHl. exact DR3. }
        destruct (makeFaces (length l) c (fmt f) (dtf t) vs (Z.of_nat a) (Z.of_nat b) (concat dls'' ++ more ++ rest) nf fs) as [[fs' s']|] eqn:M; [|reflexivity].
        rewrite (SK _ _ _ _ M). apply IH'. exact I.
Qed.
Lemma face_row_rest c f p vs ps cs ds : row c f ps cs ds -> list_types p ps -> forall nf fs rest fs' s', faceRow c (fmt f) p (map prp_of ps) vs (ds ++ rest) nf fs = Some (fs', s') -> s' = rest.
Proof.
  induction 1 as [|t k n x ds ps cs more K D RR IH|tn kn t k l dn dls ps cs more K1 K2 D1 D2 RR IH]; intros LT nf fs rest fs' s'.
  - cbn. intros E. injection E as _ <-. reflexivity.
  - destruct (find_kind t k K) as [A B]. cbn [map prp_of faceRow]. rewrite <- app_assoc.
    assert (RD := read_double_ok c f k x ds (dtf t) (more ++ rest) D B).
    destruct (dtf t) eqn:T; try (cbn in B; discriminate B); rewrite RD; apply (IH (list_types_tail _ _ _ LT)).
  - destruct (find_kind tn kn K1) as [A1 B1]. destruct (find_kind t k K2) as [A2 B2]. destruct (LT tn t (or_introl eq_refl)) as [L1 L2].
    cbn [map prp_of faceRow]. rewrite L1, A1, L2, A2, <- !app_assoc. rewrite (read_int_ok c f kn (length l) dn (dtf tn) _ D1 B1).
    destruct l as [|a [|b l]].
    + inversion D2; subst. cbn [length concat app]. change (Z.of_nat 0 - 1 <? 0)%Z with true. cbv iota. apply (IH (list_types_tail _ _ _ LT)).
    + inversion D2 as [|? da ? dls' DA DR]; subst. inversion DR; subst. cbn [length concat app]. rewrite app_nil_r.
      change (Z.of_nat 1 - 1 <? 0)%Z with false. cbv iota. rewrite (read_int_ok c f k a da (dtf t) _ DA B2).
      change (Z.of_nat 1 - 2 <? 0)%Z with true. cbv iota. apply (IH (list_types_tail _ _ _ LT)).
    + inversion D2 as [|? da ? dls' DA DR]; subst. inversion DR as [|? db ? dls'' DB' DR2]; subst. cbn [concat]. rewrite <- !app_assoc.
      destruct (Z.ltb_spec (Z.of_nat (length (a :: b :: l)) - 1) 0) as [W|_]; [cbn [length] in W; lia|].
      rewrite (read_int_ok c f k a da (dtf t) _ DA B2).
      destruct (Z.ltb_spec (Z.of_nat (length (a :: b :: l)) - 2) 0) as [W|_]; [cbn [length] in W; lia|].
      rewrite (read_int_ok c f k b db (dtf t) _ DB' B2).
      replace (Z.to_nat (Z.of_nat (length (a :: b :: l)) - 2)) with (length l) by (cbn [length]; lia).
      assert (SK : forall nf fs fs' s', makeFaces (length l) c (fmt f) (dtf t) vs (Z.of_nat a) (Z.of_nat b) (concat dls'' ++ more ++ rest) nf fs = Some (fs', s') -> s' = more ++ rest).
      { clear - DR2 B2. intros nf. revert dls'' DR2. induction l as [|i l IHl]; intros dls'' DR2 fs fs' s'; inversion DR2 as [|? di ? dl2 DI DR3]; subst; cbn [length makeFaces concat app]; [intros E; injection E as _ <-; reflexivity|].
        rewrite <- app_assoc, (read_int_ok c f k i di (dtf t) _ DI B2). destruct (makeFace vs (Z.of_nat a) (Z.of_nat b) (Z.of_nat i)); [|discriminate]. destruct (Z.ltb _ nf); [|discriminate]. apply IHl. exact DR3. }
      destruct (makeFaces (length l) c (fmt f) (dtf t) vs (Z.of_nat a) (Z.of_nat b) (concat dls'' ++ more ++ rest) nf fs) as [[fs2 s2]|] eqn:M; [|discriminate].
      rewrite (SK _ _ _ _ M). apply (IH (list_types_tail _ _ _ LT)).
Qed.
Lemma face_rows_bad c f p vs ps rs ds : rows c f ps rs ds -> list_types p ps -> (exists l, List.In l (flat_map polygons_of_row rs) /\ beyond (length vs) l) -> forall nf fs rest,
  faceRows (length rs) c (fmt f) p (map prp_of ps) vs (ds ++ rest) nf fs = None.
Proof.
  induction 1 as [|r rs d ds R RS IH]; intros LT (l & I & BY) nf fs rest; cbn [length faceRows flat_map] in *; [destruct I|]. rewrite <- app_assoc.
  destruct (faceRow c (fmt f) p (map prp_of ps) vs (d ++ ds ++ rest) nf fs) as [[fs' s']|] eqn:E; [|reflexivity].
  apply in_app_or in I. destruct I as [I|I].
  - rewrite (face_row_bad c f p vs ps r d R LT) in E; [discriminate E|exists l; auto].
  - rewrite (face_row_rest c f p vs ps r d R LT _ _ _ _ _ E). apply (IH LT). exists l; auto.
Qed.

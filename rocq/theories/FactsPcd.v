(** PCD files: the header, the values, the points. *)
From Coq Require Import Ascii String List ZArith Lia Lra Reals.
From Verif Require Import Base Spec SpecPcd ModelPcd FactsEP FactsPly FactsObj.
Import ListNotations.
Open Scope list_scope.
Open Scope R_scope.

Lemma atoi_numeral t z : numeral t z -> atoi t = z.
Proof.
  destruct 1 as [ds [NE F]|ds [NE F]].
  - destruct ds as [|d ds]; [congruence|]. cbn [digits_text]. inversion F as [|? ? H F']; subst.
    unfold atoi. destruct (digit_plain d H) as (_ & -> & ->). change (String (digit_text d) (digits_text ds)) with (digits_text (d :: ds)). rewrite atoi_digits by exact F. reflexivity.
  - unfold atoi. change (Ascii.eqb "-" "-") with true. cbv iota. rewrite atoi_digits by exact F. reflexivity.
Qed.

(** ** Header *)
Lemma header_filter ls : forall ps p, headerFRead ls ps p = headerFRead (filter not_comment ls) ps p.
Proof.
  induction ls as [|[|ws] ls IH]; intros ps p; cbn [filter not_comment headerFRead]; [reflexivity|apply IH|].
  destruct ws as [|t ws]; [reflexivity|]. destruct (advance (w_text t) ps) as [[|[k r] more]|]; try reflexivity.
  destruct (r p ws) as [p'| |]; try reflexivity. destruct (String.eqb k "DATA"); [reflexivity|apply IH].
Qed.
Lemma header_step key r more args l ls ps p p' : line_of key args l -> advance key ps = Some ((key, r) :: more) -> String.eqb key "DATA" = false ->
  (forall ws, args ws -> r p ws = SOk p') -> headerFRead (l :: ls) ps p = headerFRead ls ((key, r) :: more) p'.
Proof. intros (k & ws & -> & K & A) AD ND H. cbn [headerFRead]. unfold word_is in K. rewrite K, AD, (H ws A), ND. reflexivity. Qed.
Lemma header_last key r more args l ls ps p p' : line_of key args l -> advance key ps = Some ((key, r) :: more) -> String.eqb key "DATA" = true ->
  (forall ws, args ws -> r p ws = SOk p') -> headerFRead (l :: ls) ps p = SOk p'.
Proof. intros (k & ws & -> & K & A) AD ND H. cbn [headerFRead]. unfold word_is in K. rewrite K, AD, (H ws A), ND. reflexivity. Qed.

Definition nameIx (s : string) : option nat := attrFind s ["x"; "y"; "z"]%string.
Definition bitsOf (n : nat) : nat := match n with 1 => 0 | 2 => 1 | 4 => 2 | _ => 3 end%nat.
Definition typeIx (t : ctype) : nat := match t with CInt => 0 | CNat => 1 | CReal => 2 end%nat.
Definition fieldOf (c : column) : zPCDField := PFld (nameIx (c_name c)) (Z.of_nat (c_size c)) (bitsOf (c_size c)) (Some (typeIx (c_type c))).
Definition tpOf (c : column) : vtp :=
  match c_type c with CInt => TI (c_size c) | CNat => TU (c_size c) | CReal => if Nat.eqb (c_size c) 4 then TF32 else TF64 end.

Lemma read_fields p ws cols : cols <> [] -> Forall2 (fun w c => word_is w (c_name c)) ws cols ->
  readFields p ws = SOk (PCD (map (fun c => PFld (nameIx (c_name c)) 0 0 None) cols) (c_width p) (c_height p) (c_view p) (c_datatype p)).
Proof.
  intros NE F. unfold readFields. destruct ws as [|w ws]; [inversion F; subst; congruence|]. f_equal. f_equal. revert F. generalize (w :: ws). clear. intros ws F.
  induction F as [|w c ws cols N F IH]; cbn [map]; [reflexivity|]. unfold word_is in N. rewrite N, IH. reflexivity.
Qed.
Lemma over_size ws cols : Forall admissible cols -> Forall2 (fun w c => word_num w (Z.of_nat (c_size c))) ws cols ->
  overFields sizeField (map (fun c => PFld (nameIx (c_name c)) 0 0 None) cols) ws = Some (map (fun c => PFld (nameIx (c_name c)) (Z.of_nat (c_size c)) (bitsOf (c_size c)) None) cols).
Proof.
  intros A F. induction F as [|w c ws cols N F IH]; cbn [map overFields]; [reflexivity|]. inversion A as [|? ? [S _] A']; subst.
  assert (E : sizeField (PFld (nameIx (c_name c)) 0 0 None) w = Some (PFld (nameIx (c_name c)) (Z.of_nat (c_size c)) (bitsOf (c_size c)) None)); [|rewrite E, (IH A'); reflexivity].
  unfold sizeField. unfold word_num in N. rewrite (atoi_numeral _ _ N).
  destruct S as [E|[E|[E|[E|[]]]]]; rewrite <- E; reflexivity.
Qed.
Lemma over_type ws cols : Forall2 (fun w c => word_is w (type_letter (c_type c))) ws cols ->
  overFields typeField (map (fun c => PFld (nameIx (c_name c)) (Z.of_nat (c_size c)) (bitsOf (c_size c)) None) cols) ws = Some (map fieldOf cols).
Proof.
  intros F. induction F as [|w c ws cols N F IH]; cbn [map overFields]; [reflexivity|].
  assert (E : typeField (PFld (nameIx (c_name c)) (Z.of_nat (c_size c)) (bitsOf (c_size c)) None) w = Some (fieldOf c)); [|rewrite E, IH; reflexivity].
  unfold typeField. unfold word_is in N. rewrite N. destruct c as [n t s]. destruct t; reflexivity.
Qed.
Lemma over_count ws cols : Forall2 (fun w (c : column) => word_num w 1) ws cols -> overFields countField (map fieldOf cols) ws = Some (map fieldOf cols).
Proof.
  intros F. induction F as [|w c ws cols N F IH]; cbn [map overFields]; [reflexivity|].
  assert (E : countField (fieldOf c) w = Some (fieldOf c)) by (unfold countField; unfold word_num in N; rewrite (atoi_numeral _ _ N); reflexivity). rewrite E, IH. reflexivity.
Qed.
Lemma has_dot s : has_point s -> hasDot s = true.
Proof. induction s as [|c s IH]; cbn [has_point hasDot]; [intros []|]. intros [->|H]; [reflexivity|]. destruct (Ascii.eqb c "."); [reflexivity|apply IH, H]. Qed.

(** the frame that the header makes of the viewpoint *)
Definition viewFrame (p : vec3) (q : quat) : frame3 := F3 p (zMat3DFromEP (snd (zEPNormalize q))).
Definition formatOf (f : data_format) : zPCDDataType := match f with DText => PASCII | DBinary => PBINARY | DCompressed => PBINCOM end.

Lemma view_ident : viewFrame (V3 0 0 0) (Q4 1 0 0 0) = F3 (V3 0 0 0) ZMAT3DIDENT.
Proof.
  unfold viewFrame, zEPNormalize, zEPNorm, zEPInnerProd, zVec3DInnerProd, exv. cbn [qw qx qy qz vx vy vz].
  replace (1 * 1 + (0 * 0 + 0 * 0 + 0 * 0)) with 1 by ring. rewrite sqrt_1.
  assert (T : zIsTiny 1 = false) by (apply zIsTiny_false; rewrite Rabs_R1; assert (Z1 := zTOL_small); lra). rewrite T. cbn [snd].
  f_equal. unfold ZMAT3DIDENT. qred. apply mat3_ext; cbn [cxx cxy cxz cyx cyy cyz czx czy czz]; field.
Qed.

Ltac prop_adv := reflexivity.
Lemma header_reads cols w h p q f ls : cols <> [] -> Forall admissible cols -> pcd_header cols w h p q f ls ->
  headerFRead ls zPCDProperty zPCDInit = SOk (PCD (map fieldOf cols) (Z.of_nat w) (Z.of_nat h) (viewFrame p q) (Some (formatOf f))).
Proof.
  intros NE AD (ver & fields & sizes & types & cnt & width & height & view & pts & dat & E & HV & HF & HZ & HT & HC & HW & HH & HP & HN & HD).
  rewrite header_filter, E. clear E ls.
  assert (Q1 : headerFRead (ver ++ [fields; sizes; types] ++ cnt ++ [width; height] ++ view ++ pts ++ [dat]) zPCDProperty zPCDInit
    = headerFRead ([fields; sizes; types] ++ cnt ++ [width; height] ++ view ++ pts ++ [dat]) zPCDProperty zPCDInit).
  { destruct HV as [->|(l & -> & HV)]; [reflexivity|]. cbn [app]. eapply (header_step "VERSION"); [exact HV|reflexivity|reflexivity|].
    intros ws (w0 & I & D). unfold readVersion. assert (X : existsb (fun w => hasDot (w_text w)) ws = true) by (apply existsb_exists; exists w0; split; [exact I|apply has_dot, D]). rewrite X. reflexivity. }
  rewrite Q1. clear Q1. cbn [app].
  erewrite (header_step "FIELDS"); [|exact HF|reflexivity|reflexivity|intros ws A; apply (read_fields _ ws cols NE A)].
  erewrite (header_step "SIZE"); [|exact HZ|reflexivity|reflexivity|intros ws A; unfold readSize; cbn [c_field]; rewrite (over_size ws cols AD A); reflexivity].
  erewrite (header_step "TYPE"); [|exact HT|reflexivity|reflexivity|intros ws A; unfold readType; cbn [c_field setFields c_width c_height c_view c_datatype]; rewrite (over_type ws cols A); reflexivity].
  cbn [c_width c_height c_view c_datatype zPCDInit setFields].
  set (P0 := PCD (map fieldOf cols) 0 0 (F3 (V3 0 0 0) ZMAT3DIDENT) None).
  assert (Q2 : exists ps, headerFRead (cnt ++ width :: height :: view ++ pts ++ [dat]) [("TYPE"%string, readType); ("COUNT"%string, readCount); ("WIDTH"%string, readWidth); ("HEIGHT"%string, readHeight); ("VIEWPOINT"%string, readView); ("POINTS"%string, readPoints); ("DATA"%string, readData)] P0
    = headerFRead (width :: height :: view ++ pts ++ [dat]) ps P0 /\ advance "WIDTH" ps = Some [("WIDTH"%string, readWidth); ("HEIGHT"%string, readHeight); ("VIEWPOINT"%string, readView); ("POINTS"%string, readPoints); ("DATA"%string, readData)]).
  { destruct HC as [->|(l & -> & HC)]; [eexists; split; [reflexivity|reflexivity]|]. eexists. split; [cbn [app]; eapply (header_step "COUNT"); [exact HC|reflexivity|reflexivity|]|reflexivity].
    intros ws A. unfold readCount. cbn [c_field P0]. rewrite (over_count ws cols A). reflexivity. }
  destruct Q2 as (ps & Q2 & Q3). unfold P0 in *. rewrite Q2. clear Q2.
  erewrite (header_step "WIDTH"); [|exact HW|exact Q3|reflexivity|intros ws (n & -> & A); unfold readWidth; rewrite (atoi_numeral _ _ A); reflexivity]. clear ps Q3.
  erewrite (header_step "HEIGHT"); [|exact HH|reflexivity|reflexivity|intros ws (n & -> & A); unfold readHeight; rewrite (atoi_numeral _ _ A); reflexivity].
  cbn [c_field c_width c_height c_view c_datatype].
  assert (Q4' : exists ps, headerFRead (view ++ pts ++ [dat]) [("HEIGHT"%string, readHeight); ("VIEWPOINT"%string, readView); ("POINTS"%string, readPoints); ("DATA"%string, readData)] (PCD (map fieldOf cols) (Z.of_nat w) (Z.of_nat h) (F3 (V3 0 0 0) ZMAT3DIDENT) None)
    = headerFRead (pts ++ [dat]) ps (PCD (map fieldOf cols) (Z.of_nat w) (Z.of_nat h) (viewFrame p q) None) /\ advance "POINTS" ps = Some [("POINTS"%string, readPoints); ("DATA"%string, readData)] /\ advance "DATA" ps = Some [("DATA"%string, readData)]).
  { destruct HP as [(-> & -> & ->)|(l & -> & HP)]; [rewrite view_ident; eexists; split; [reflexivity|split; reflexivity]|].
    eexists. split; [cbn [app]; eapply (header_step "VIEWPOINT"); [exact HP|reflexivity|reflexivity|]|split; reflexivity].
    intros ws A. unfold readView. rewrite A. cbn [map c_field c_width c_height c_datatype]. destruct p, q. reflexivity. }
  destruct Q4' as (ps & -> & Q5 & Q6).
  assert (Q7 : exists ps', headerFRead (pts ++ [dat]) ps (PCD (map fieldOf cols) (Z.of_nat w) (Z.of_nat h) (viewFrame p q) None) = headerFRead [dat] ps' (PCD (map fieldOf cols) (Z.of_nat w) (Z.of_nat h) (viewFrame p q) None) /\ advance "DATA" ps' = Some [("DATA"%string, readData)]).
  { destruct HN as [->|(l & -> & HN)]; [eexists; split; [reflexivity|exact Q6]|]. eexists. split; [cbn [app]; eapply (header_step "POINTS"); [exact HN|exact Q5|reflexivity|]|reflexivity].
    intros ws (n & -> & A). unfold readPoints. rewrite (atoi_numeral _ _ A). cbn [c_width c_height]. rewrite Nat2Z.inj_mul, Z.eqb_refl. reflexivity. }
  destruct Q7 as (ps' & -> & Q8).
  eapply (header_last "DATA"); [exact HD|exact Q8|reflexivity|]. intros ws (n & -> & A). unfold readData. unfold word_is in A. rewrite A. destruct f; reflexivity.
Qed.

(** ** Values *)
Lemma table_col c : admissible c -> pcdTable (Some (typeIx (c_type c))) (bitsOf (c_size c)) = Some (Some (tpOf c)).
Proof.
  intros [S F]. unfold tpOf. destruct c as [n t s]; cbn [c_type c_size] in *. destruct S as [<-|[<-|[<-|[<-|[]]]]]; destruct t; try reflexivity; destruct (F eq_refl) as [D|D]; discriminate D.
Qed.
Definition asgA (c : column) : option (nat * vtp) := match nameIx (c_name c) with Some k => Some (k, tpOf c) | None => None end.
Lemma assign_ascii cols : Forall admissible cols -> assignAll assignASCII (map fieldOf cols) = Some (map asgA cols).
Proof.
  induction 1 as [|c cols A F IH]; cbn [map assignAll]; [reflexivity|]. rewrite IH. unfold assignASCII, fieldOf, asgA. cbn [pf_type pf_val pf_bits]. rewrite (table_col c A). destruct (nameIx (c_name c)); reflexivity.
Qed.
Lemma assign_bin cols : Forall admissible cols -> assignAll assignBIN (map fieldOf cols) = Some (map (fun c => Some (nameIx (c_name c), tpOf c)) cols).
Proof.
  induction 1 as [|c cols A F IH]; cbn [map assignAll]; [reflexivity|]. rewrite IH. unfold assignBIN, fieldOf. cbn [pf_type pf_val pf_bits]. rewrite (table_col c A). reflexivity.
Qed.
Lemma wrapU_fits b z : fits CNat b z -> wrapU b z = z.
Proof. intros H. unfold wrapU. apply Z.mod_small. exact H. Qed.
Lemma wrapS_mod b z : (0 < b)%nat -> fits CInt b z -> wrapS b (z mod 2 ^ (8 * Z.of_nat b)) = z /\ wrapS b z = z.
Proof.
  intros B H. cbn [fits] in H. unfold wrapS, wrapU. rewrite Z.mod_mod by (apply Z.pow_nonzero; lia).
  assert (E : (2 ^ (8 * Z.of_nat b) = 2 * 2 ^ (8 * Z.of_nat b - 1))%Z) by (rewrite <- Z.pow_succ_r by lia; f_equal; lia).
  assert (X : (if (z mod 2 ^ (8 * Z.of_nat b) <? 2 ^ (8 * Z.of_nat b - 1))%Z then (z mod 2 ^ (8 * Z.of_nat b))%Z else (z mod 2 ^ (8 * Z.of_nat b) - 2 ^ (8 * Z.of_nat b))%Z) = z); [|split; exact X].
  rewrite E. set (M := (2 ^ (8 * Z.of_nat b - 1))%Z) in *. assert (MP : (0 < M)%Z) by (apply Z.pow_pos_nonneg; lia).
  destruct (Z.lt_ge_cases z 0) as [N|N].
  - assert (MU : (z + 2 * M = z mod (2 * M))%Z) by (apply (Z.mod_unique z (2 * M) (-1) (z + 2 * M)); [left; lia|lia]). rewrite <- MU. destruct (Z.ltb_spec (z + 2 * M) M); lia.
  - rewrite Z.mod_small by lia. destruct (Z.ltb_spec z M); lia.
Qed.
Lemma size_pos c : admissible c -> (0 < c_size c)%nat.
Proof. intros [S _]. destruct S as [<-|[<-|[<-|[<-|[]]]]]; lia. Qed.
Lemma ascii_cell rnd c w x : admissible c -> cell_text rnd c w x -> asciiVal rnd (tpOf c) w = x.
Proof.
  intros A H. destruct H as [z N F|T S|T S]; unfold tpOf.
  - destruct (c_type c) eqn:T; cbn [asciiVal]; rewrite ?(atoi_numeral _ _ N).
    + rewrite (Logic.proj2 (wrapS_mod _ _ (size_pos c A) F)). reflexivity.
    + rewrite (wrapU_fits _ _ F). reflexivity.
    + destruct F.
  - rewrite T, S. reflexivity.
  - rewrite T, S. reflexivity.
Qed.
Lemma pow_bytes b : (2 ^ (8 * Z.of_nat b) = 256 ^ Z.of_nat b)%Z.
Proof. rewrite Z.pow_mul_r by lia. reflexivity. Qed.
Lemma bin_cell cd c bs x : admissible c -> cell_bytes cd c bs x -> length bs = vtpSize (tpOf c) /\ length bs = c_size c /\ binVal cd (tpOf c) bs = x.
Proof.
  intros A H. destruct H as [z F|bs T S L|bs T S L]; unfold tpOf.
  - rewrite low_length. assert (U : unsignedZ (low_first (c_size c) (z mod 2 ^ (8 * Z.of_nat (c_size c)))) = (z mod 2 ^ (8 * Z.of_nat (c_size c)))%Z).
    { apply low_value. rewrite <- pow_bytes. apply Z.mod_pos_bound. apply Z.pow_pos_nonneg; lia. }
    destruct (c_type c) eqn:T; cbn [binVal vtpSize]; rewrite ?U.
    + split; [reflexivity|]. split; [reflexivity|]. rewrite (Logic.proj1 (wrapS_mod _ _ (size_pos c A) F)). reflexivity.
    + split; [reflexivity|]. split; [reflexivity|]. cbn [fits] in F. unfold wrapU. rewrite Z.mod_mod by (apply Z.pow_nonzero; lia). rewrite Z.mod_small by exact F. reflexivity.
    + destruct F.
  - rewrite T, S. cbn [Nat.eqb vtpSize binVal]. auto.
  - rewrite T, S. cbn [Nat.eqb vtpSize binVal]. auto.
Qed.

(** ** Rows *)
Fixpoint lookd (s : string) (cols : list column) (xs : list (option R)) (d : option R) : option R :=
  match cols, xs with
  | c :: cols, x :: xs => if String.eqb (c_name c) s then x else lookd s cols xs d
  | _, _ => d
  end.
Lemma look_lookd s cols : forall xs, look s cols xs = lookd s cols xs (Some 0).
Proof. induction cols as [|c cols IH]; intros [|x xs]; cbn [look lookd]; try reflexivity. destruct (String.eqb (c_name c) s); [reflexivity|apply IH]. Qed.
Lemma lookd_absent s cols : ~ List.In s (map c_name cols) -> forall xs d, lookd s cols xs d = d.
Proof.
  induction cols as [|c cols IH]; intros NI xs d; [reflexivity|]. destruct xs as [|x xs]; [reflexivity|]. cbn [lookd].
  destruct (String.eqb_spec (c_name c) s) as [E|E]; [exfalso; apply NI; left; exact E|apply IH; intros I; apply NI; right; exact I].
Qed.
Definition merged (cols : list column) (xs : list (option R)) (v : ovec) : ovec :=
  let '(a, b, c) := v in (lookd "x" cols xs a, lookd "y" cols xs b, lookd "z" cols xs c).
Lemma name_cases s : (s = "x" /\ nameIx s = Some 0%nat \/ s = "y" /\ nameIx s = Some 1%nat \/ s = "z" /\ nameIx s = Some 2%nat \/ (s <> "x" /\ s <> "y" /\ s <> "z") /\ nameIx s = None)%string.
Proof.
  unfold nameIx. cbn [attrFind]. destruct (String.eqb_spec s "x") as [->|N1]; [left; auto|]. right. destruct (String.eqb_spec s "y") as [->|N2]; [left; auto|]. right.
  destruct (String.eqb_spec s "z") as [->|N3]; [left; auto|]. right. auto.
Qed.
Lemma merged_put c cols x xs v : ~ List.In (c_name c) (map c_name cols) ->
  merged cols xs (match nameIx (c_name c) with Some k => putCoord k x v | None => v end) = merged (c :: cols) (x :: xs) v.
Proof.
  intros NI. destruct v as [[a b] d]. destruct (name_cases (c_name c)) as [[E ->]|[[E ->]|[[E ->]|[(N1 & N2 & N3) ->]]]]; cbn [putCoord merged lookd].
  - rewrite E in *. cbn [String.eqb Ascii.eqb Bool.eqb]. rewrite (lookd_absent "x") by exact NI. reflexivity.
  - rewrite E in *. cbn [String.eqb Ascii.eqb Bool.eqb]. rewrite (lookd_absent "y") by exact NI. reflexivity.
  - rewrite E in *. cbn [String.eqb Ascii.eqb Bool.eqb]. rewrite (lookd_absent "z") by exact NI. reflexivity.
  - destruct (String.eqb_spec (c_name c) "x"); [congruence|]. destruct (String.eqb_spec (c_name c) "y"); [congruence|]. destruct (String.eqb_spec (c_name c) "z"); [congruence|]. reflexivity.
Qed.
Lemma lookd_zero s cols d : (List.In s (map c_name cols) -> d = Some 0) -> lookd s cols (map (fun _ : column => Some 0) cols) d = d.
Proof.
  induction cols as [|c cols IH]; intros H; cbn [map lookd]; [reflexivity|]. destruct (String.eqb_spec (c_name c) s) as [E|E]; [symmetry; apply H; left; exact E|apply IH; intros I; apply H; right; exact I].
Qed.
Definition fresh (cols : list column) (v : ovec) : Prop :=
  let '(a, b, c) := v in (List.In "x"%string (map c_name cols) -> a = Some 0) /\ (List.In "y"%string (map c_name cols) -> b = Some 0) /\ (List.In "z"%string (map c_name cols) -> c = Some 0).
Lemma ascii_row rnd cols ws xs : text_row rnd cols ws xs -> Forall admissible cols -> NoDup (map c_name cols) -> forall v, fresh cols v -> asciiRow rnd (map asgA cols) ws v = merged cols xs v.
Proof.
  induction 1 as [cols|ws|c cols w ws x xs C T IH]; intros A ND v FR.
  - destruct v as [[a b] d]. destruct FR as (F1 & F2 & F3). cbn [merged]. rewrite !lookd_zero by assumption. destruct (map asgA cols); reflexivity.
  - destruct v as [[a b] d]. reflexivity.
  - cbn [map asciiRow]. inversion A as [|? ? A1 A2]; subst. inversion ND as [|? ? NI ND']; subst. rewrite <- (merged_put c cols x xs v NI).
    assert (E : match asgA c with Some (k, t) => putCoord k (asciiVal rnd t w) v | None => v end = match nameIx (c_name c) with Some k => putCoord k x v | None => v end).
    { unfold asgA. destruct (nameIx (c_name c)) as [k|] eqn:NX; [|reflexivity]. rewrite (ascii_cell rnd c w x A1); [reflexivity|]. apply C. unfold coordinate_name.
      destruct (name_cases (c_name c)) as [[-> _]|[[-> _]|[[-> _]|[_ Q]]]]; [left|right; left|right; right; left|congruence]; reflexivity. }
    rewrite E. apply IH; [exact A2|exact ND'|]. destruct v as [[a b] d]. destruct FR as (F1 & F2 & F3).
    destruct (name_cases (c_name c)) as [[Q ->]|[[Q ->]|[[Q ->]|[_ ->]]]]; cbn [putCoord fresh];
      (split; [|split]); intros I; try (exfalso; apply NI; rewrite Q; exact I); first [apply F1; right; exact I|apply F2; right; exact I|apply F3; right; exact I].
Qed.
Lemma bin_row cd cols bs xs : byte_row cd cols bs xs -> Forall admissible cols -> NoDup (map c_name cols) -> forall more eof v,
  binRow cd (map (fun c => Some (nameIx (c_name c), tpOf c)) cols) (bs ++ more) eof v = (more, eof, merged cols xs v).
Proof.
  induction 1 as [|c cols bs rest x xs C T IH]; intros A ND more eof v.
  - destruct v as [[a b] d]. reflexivity.
  - cbn [map binRow]. inversion A as [|? ? A1 A2]; subst. inversion ND as [|? ? NI ND']; subst. destruct (bin_cell cd c bs x A1 C) as (L & _ & V).
    destruct (Nat.ltb_spec (length ((bs ++ rest) ++ more)) (vtpSize (tpOf c))) as [W|_]; [rewrite !app_length in W; lia|].
    rewrite <- app_assoc, <- L. rewrite firstn_app, skipn_app, Nat.sub_diag, firstn_all, skipn_all. cbn [firstn skipn app]. rewrite app_nil_r, V.
    rewrite (IH A2 ND' more eof), (merged_put c cols x xs v NI). reflexivity.
Qed.
Lemma bin_row_end cd cols v : Forall admissible cols -> binRow cd (map (fun c => Some (nameIx (c_name c), tpOf c)) cols) [] true v = ([], true, v).
Proof.
  induction 1 as [|c cols A F IH]; cbn [map binRow]; [reflexivity|]. assert (P : (0 < vtpSize (tpOf c))%nat) by (unfold tpOf; assert (S := size_pos c A); destruct (c_type c); cbn [vtpSize]; try exact S; destruct (Nat.eqb (c_size c) 4); cbn [vtpSize]; lia).
  destruct (Nat.ltb_spec (length (@nil Z)) (vtpSize (tpOf c))) as [_|W]; [exact IH|cbn [length] in W; lia].
Qed.

(** ** Points *)
Lemma finite_merged cols xs : finite (merged cols xs ozero) = row_point cols xs.
Proof. unfold merged, ozero, row_point. rewrite !look_lookd. cbn [finite]. destruct (lookd "x" cols xs (Some 0)); [|reflexivity]. destruct (lookd "y" cols xs (Some 0)); [|reflexivity]. destruct (lookd "z" cols xs (Some 0)); reflexivity. Qed.
Definition arr (cap : nat) (l : list vec3) : data vec3 := DT MArray l (length l) cap (length l) None.
Lemma add_arr cap l v : (length l <= cap)%nat -> fst (zVecXDDataAdd (arr cap l) v) = arr cap (firstn cap (l ++ [v])).
Proof.
  intros L. unfold zVecXDDataAdd, arr. cbn [d_method d_cap d_i d_store d_c]. destruct (Nat.leb_spec cap (length l)) as [H|H]; cbn [fst].
  - assert (E : firstn cap (l ++ [v]) = l) by (replace cap with (length l) by lia; rewrite firstn_app, Nat.sub_diag, firstn_all; cbn [firstn]; apply app_nil_r). rewrite E. reflexivity.
  - assert (E : firstn cap (l ++ [v]) = l ++ [v]) by (apply firstn_all2; rewrite app_length; cbn [length]; lia). rewrite E, app_length. cbn [length].
    rewrite firstn_all, skipn_all2 by lia. rewrite Nat.add_1_r. reflexivity.
Qed.
Lemma firstn_chain {A} cap (l a b : list A) : firstn cap (firstn cap (l ++ a) ++ b) = firstn cap (l ++ a ++ b).
Proof.
  rewrite app_assoc. set (m := l ++ a). rewrite !firstn_app, firstn_firstn, Nat.min_id. f_equal. rewrite firstn_length. destruct (Nat.le_ge_cases cap (length m)) as [H|H]; [rewrite Nat.min_l by exact H; replace (cap - length m)%nat with 0%nat by lia; rewrite Nat.sub_diag; reflexivity|rewrite Nat.min_r by exact H; reflexivity].
Qed.
Definition taken (fr : frame3) (cols : list column) (rows : list (list (option R))) : list vec3 :=
  flat_map (fun xs => match row_point cols xs with Some v => [zXform3D fr v] | None => [] end) rows.
Lemma add_row fr cols cap xs l : (length l <= cap)%nat -> addPoint fr (merged cols xs ozero) (arr cap l) = arr cap (firstn cap (l ++ taken fr cols [xs])).
Proof.
  intros L. unfold addPoint. rewrite finite_merged. cbn [taken flat_map]. rewrite app_nil_r. destruct (row_point cols xs) as [v|]; [apply add_arr, L|]. rewrite app_nil_r, firstn_all2 by exact L. reflexivity.
Qed.
Lemma ascii_reads rnd fr cols lines rows : Forall admissible cols -> NoDup (map c_name cols) -> Forall2 (text_row rnd cols) lines rows -> forall cap l, (length l <= cap)%nat ->
  asciiFRead rnd (map asgA cols) fr lines (arr cap l) = arr cap (firstn cap (l ++ taken fr cols rows)).
Proof.
  intros A ND F. unfold asciiFRead. induction F as [|ws xs lines rows T F IH]; intros cap l L; cbn [fold_left].
  - cbn [taken flat_map]. rewrite app_nil_r, firstn_all2 by exact L. reflexivity.
  - rewrite (ascii_row rnd cols ws xs T A ND ozero) by (cbn; auto). rewrite add_row by exact L.
    rewrite IH by (rewrite firstn_length; lia). rewrite firstn_chain. f_equal. f_equal. f_equal. unfold taken. cbn [flat_map]. rewrite app_nil_r. reflexivity.
Qed.
Lemma bin_reads cd fr cols rows bss : cols <> [] -> Forall admissible cols -> NoDup (map c_name cols) -> Forall2 (byte_row cd cols) bss rows -> forall fuel cap l, (length l <= cap)%nat -> (length rows < fuel)%nat ->
  binFRead fuel cd (map (fun c => Some (nameIx (c_name c), tpOf c)) cols) fr (concat bss) false (arr cap l) = Some (arr cap (firstn cap (l ++ taken fr cols rows ++ [zXform3D fr (V3 0 0 0)]))).
Proof.
  intros NE A ND F. induction F as [|bs xs bss rows T F IH]; intros fuel cap l L FU; (destruct fuel as [|fuel]; [cbn [length] in FU; lia|]); cbn [concat binFRead].
  - destruct cols as [|c cols]; [congruence|]. inversion A as [|? ? A1 A2]; subst. cbn [map binRow].
    assert (P : (0 < vtpSize (tpOf c))%nat) by (unfold tpOf; assert (S := size_pos c A1); destruct (c_type c); cbn [vtpSize]; try exact S; destruct (Nat.eqb (c_size c) 4); cbn [vtpSize]; lia).
    destruct (Nat.ltb_spec (length (@nil Z)) (vtpSize (tpOf c))) as [_|W]; [|cbn [length] in W; lia]. rewrite (bin_row_end cd cols ozero A2).
    unfold addPoint, ozero. cbn [finite]. rewrite add_arr by exact L. destruct fuel; reflexivity.
  - rewrite (bin_row cd cols bs xs T A ND). rewrite add_row by exact L. cbn [length] in FU. rewrite IH by (try (rewrite firstn_length); lia).
    rewrite firstn_chain. f_equal. f_equal. f_equal. f_equal. unfold taken. cbn [flat_map]. rewrite app_nil_r, <- app_assoc. reflexivity.
Qed.

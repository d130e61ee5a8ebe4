(** PCD files: theorems. *)
From Coq Require Import Ascii String List ZArith Lia Lra Reals.
From Verif Require Import Base Spec SpecPcd ModelPcd FactsAlg FactsEP FactsPly FactsObj FactsPcd.
Import ListNotations.
Open Scope list_scope.
Open Scope R_scope.

(** ** The viewpoint *)
Lemma view_seen p q v : zTOL < sqrt (qnorm2 q) -> zXform3D (viewFrame p q) v = seen p q v.
Proof.
  intros H. assert (TP := zTOL_pos).
  assert (N : zEPNorm q = sqrt (qnorm2 q)) by (unfold zEPNorm; f_equal; destruct q; qred; ring).
  assert (T : zIsTiny (sqrt (qnorm2 q)) = false) by (apply zIsTiny_false; rewrite Rabs_right; lra).
  assert (NZ : sqrt (qnorm2 q) <> 0) by lra.
  assert (QP : 0 < qnorm2 q) by (destruct (Rlt_le_dec 0 (qnorm2 q)) as [P|P]; [exact P|]; rewrite (sqrt_neg_0 _ P) in H; lra).
  assert (SQ : sqrt (qnorm2 q) * sqrt (qnorm2 q) = qnorm2 q) by (apply sqrt_sqrt; lra).
  unfold viewFrame, zEPNormalize. rewrite N, T. cbn [snd]. set (n := sqrt (qnorm2 q)) in *.
  assert (E : zMat3DFromEP (of_ex (qw q / n) (zVec3DMul (exv q) (1 / n))) = mscale (/ qnorm2 q) (zMat3DFromEP q)).
  { rewrite <- SQ. destruct q as [a b c d]. clear SQ QP N T H. qred. apply mat3_ext; cbn [cxx cxy cxz cyx cyy cyz czx czy czz]; field; exact NZ. }
  rewrite E. clear E. unfold zXform3D, seen. cbn [fatt fpos]. set (k := / qnorm2 q). clearbody k. clear. destruct p, q, v. unfold zMulMat3DVec3D. apply vec3_ext; unfold mscale, qconj, qvec; qred; cbn; ring.
Qed.
Lemma seen_origin p q : seen p q (V3 0 0 0) = p.
Proof. destruct p, q. unfold seen, qconj, qvec. apply vec3_ext; qred; cbn; ring. Qed.
Lemma seen_ident v : seen (V3 0 0 0) (Q4 1 0 0 0) v = v.
Proof. unfold seen. replace (/ qnorm2 (Q4 1 0 0 0)) with 1 by (unfold qnorm2; cbn [qw qx qy qz]; field). destruct v. unfold qconj, qvec. apply vec3_ext; qred; cbn; ring. Qed.
Lemma taken_cloud p q cols rows : zTOL < sqrt (qnorm2 q) -> taken (viewFrame p q) cols rows = cloud cols p q rows.
Proof. intros H. unfold taken, cloud. apply flat_map_ext. intros xs. destruct (row_point cols xs) as [v|]; [rewrite (view_seen p q v H)|]; reflexivity. Qed.
Lemma cloud_le cols p q rows : (length (cloud cols p q rows) <= length rows)%nat.
Proof. unfold cloud. induction rows as [|xs rows IH]; cbn [flat_map length]; [lia|]. rewrite app_length. destruct (row_point cols xs); cbn [length]; lia. Qed.

Lemma zn w h : Z.to_nat (Z.of_nat w * Z.of_nat h) = (w * h)%nat.
Proof. rewrite <- Nat2Z.inj_mul. apply Nat2Z.id. Qed.
Lemma nn w h : Z.ltb (Z.of_nat w * Z.of_nat h) 0 = false.
Proof. apply Z.ltb_ge. lia. Qed.

Lemma read_text fuel rnd cd lzf cols w h p q f lines rows : cols <> [] -> Forall admissible cols -> NoDup (map c_name cols) -> pcd_header cols w h p q DText (p_head f) -> p_lines f = lines -> Forall2 (text_row rnd cols) lines rows ->
  zVec3DDataFReadPCD fuel rnd cd lzf f = PDone (firstn (w * h) (taken (viewFrame p q) cols rows)).
Proof.
  intros NE A ND H L F. unfold zVec3DDataFReadPCD. rewrite (header_reads _ _ _ _ _ _ _ NE A H). cbn [c_width c_height c_datatype c_field c_view formatOf].
  rewrite nn, (assign_ascii cols A), L, zn. change (zVecXDDataInitArray (w * h)) with (arr (w * h) []). rewrite (ascii_reads rnd _ cols lines rows A ND F) by (cbn [length]; lia).
  unfold points_of, arr. cbn [d_size d_store app]. rewrite firstn_all. reflexivity.
Qed.
Lemma pcd_text : forall fuel rnd cd lzf cols w h p q f rows, cols <> [] -> Forall admissible cols -> NoDup (map c_name cols) -> zTOL < sqrt (qnorm2 q) ->
  pcd_header cols w h p q DText (p_head f) -> Forall2 (text_row rnd cols) (p_lines f) rows ->
  zVec3DDataFReadPCD fuel rnd cd lzf f = PDone (firstn (w * h) (cloud cols p q rows)) /\
  (length rows = w * h -> zVec3DDataFReadPCD fuel rnd cd lzf f = PDone (cloud cols p q rows))%nat.
Proof.
  intros fuel rnd cd lzf cols w h p q f rows NE A ND Q H F.
  assert (E : zVec3DDataFReadPCD fuel rnd cd lzf f = PDone (firstn (w * h) (cloud cols p q rows))) by (rewrite <- (taken_cloud p q cols rows Q); apply (read_text fuel rnd cd lzf cols w h p q f (p_lines f) rows); auto).
  split; [exact E|]. intros L. rewrite E. f_equal. apply firstn_all2. rewrite <- L. apply cloud_le.
Qed.
Lemma pcd_binary : forall fuel rnd cd lzf cols w h p q f bss rows, cols <> [] -> Forall admissible cols -> NoDup (map c_name cols) -> zTOL < sqrt (qnorm2 q) ->
  pcd_header cols w h p q DBinary (p_head f) -> p_bytes f = concat bss -> Forall2 (byte_row cd cols) bss rows -> (length rows < fuel)%nat ->
  zVec3DDataFReadPCD fuel rnd cd lzf f = PDone (firstn (w * h) (cloud cols p q rows ++ [p])) /\
  (length (cloud cols p q rows) = w * h -> zVec3DDataFReadPCD fuel rnd cd lzf f = PDone (cloud cols p q rows))%nat.
Proof.
  intros fuel rnd cd lzf cols w h p q f bss rows NE A ND Q H B F FU.
  assert (E : zVec3DDataFReadPCD fuel rnd cd lzf f = PDone (firstn (w * h) (cloud cols p q rows ++ [p]))).
  { unfold zVec3DDataFReadPCD. rewrite (header_reads _ _ _ _ _ _ _ NE A H). cbn [c_width c_height c_datatype c_field c_view formatOf].
    rewrite nn, (assign_bin cols A), B, zn. change (zVecXDDataInitArray (w * h)) with (arr (w * h) []). rewrite (bin_reads cd _ cols rows bss NE A ND F fuel) by (cbn [length]; lia).
    unfold points_of, arr. cbn [d_size d_store app]. rewrite firstn_all, (taken_cloud p q cols rows Q), (view_seen p q _ Q), seen_origin. reflexivity. }
  split; [exact E|]. intros L. rewrite E. f_equal. rewrite firstn_app, <- L, firstn_all, Nat.sub_diag. cbn [firstn]. apply app_nil_r.
Qed.
(** a binary file with a point that is not finite gets a point more *)
Lemma pcd_binary_refuted : forall fuel rnd cd lzf cols w h p q f bss rows, cols <> [] -> Forall admissible cols -> NoDup (map c_name cols) -> zTOL < sqrt (qnorm2 q) ->
  pcd_header cols w h p q DBinary (p_head f) -> p_bytes f = concat bss -> Forall2 (byte_row cd cols) bss rows -> (length rows < fuel)%nat ->
  length rows = (w * h)%nat -> (exists xs, List.In xs rows /\ row_point cols xs = None) ->
  zVec3DDataFReadPCD fuel rnd cd lzf f = PDone (cloud cols p q rows ++ [p]).
Proof.
  intros fuel rnd cd lzf cols w h p q f bss rows NE A ND Q H B F FU L (xs & I & N).
  rewrite (Logic.proj1 (pcd_binary fuel rnd cd lzf cols w h p q f bss rows NE A ND Q H B F FU)). f_equal. apply firstn_all2. rewrite app_length. cbn [length].
  assert (LT : (length (cloud cols p q rows) < length rows)%nat); [|lia]. clear - I N. unfold cloud. induction rows as [|ys rows IH]; [destruct I|]. cbn [flat_map length]. rewrite app_length.
  destruct I as [->|I]; [rewrite N; cbn [length]; assert (W := cloud_le cols p q rows); unfold cloud in W; lia|]. specialize (IH I). destruct (row_point cols ys); cbn [length]; lia.
Qed.
Lemma row_zero cols : row_point cols (map (fun _ : column => Some 0) cols) = Some (V3 0 0 0).
Proof.
  unfold row_point. assert (L : forall s, look s cols (map (fun _ : column => Some 0) cols) = Some 0) by (intros s; rewrite look_lookd; apply lookd_zero; reflexivity). rewrite !L. reflexivity.
Qed.
Lemma pcd_f2_len {A B} (P : A -> B -> Prop) l m : Forall2 P l m -> length l = length m.
Proof. induction 1; cbn [length]; congruence. Qed.
(** an empty line between the rows makes a point *)
Lemma pcd_blank_refuted : forall fuel rnd cd lzf cols w h p q f l1 l2 rows1 rows2, cols <> [] -> Forall admissible cols -> NoDup (map c_name cols) -> zTOL < sqrt (qnorm2 q) ->
  pcd_header cols w h p q DText (p_head f) -> p_lines f = l1 ++ [[]] ++ l2 -> Forall2 (text_row rnd cols) l1 rows1 -> Forall2 (text_row rnd cols) l2 rows2 -> (length l1 + length l2 < w * h)%nat ->
  zVec3DDataFReadPCD fuel rnd cd lzf f = PDone (cloud cols p q rows1 ++ [p] ++ cloud cols p q rows2).
Proof.
  intros fuel rnd cd lzf cols w h p q f l1 l2 rows1 rows2 NE A ND Q H E F1 F2 L.
  assert (F : Forall2 (text_row rnd cols) (p_lines f) (rows1 ++ [map (fun _ => Some 0) cols] ++ rows2)) by (rewrite E; apply Forall2_app; [exact F1|]; apply Forall2_app; [|exact F2]; constructor; [constructor|constructor]).
  rewrite (Logic.proj1 (pcd_text fuel rnd cd lzf cols w h p q f _ NE A ND Q H F)). f_equal.
  assert (C : cloud cols p q (rows1 ++ [map (fun _ => Some 0) cols] ++ rows2) = cloud cols p q rows1 ++ [p] ++ cloud cols p q rows2).
  { unfold cloud. rewrite !flat_map_app. f_equal. f_equal. cbn [flat_map]. rewrite row_zero, seen_origin. reflexivity. }
  rewrite C. apply firstn_all2. rewrite !app_length. cbn [length]. assert (W1 := cloud_le cols p q rows1). assert (W2 := cloud_le cols p q rows2).
  apply pcd_f2_len in F1, F2. lia.
Qed.
(** a viewpoint without attitude: all points fall together *)
Lemma pcd_zero_refuted : forall fuel rnd cd lzf cols w h p f rows, cols <> [] -> Forall admissible cols -> NoDup (map c_name cols) ->
  pcd_header cols w h p (Q4 0 0 0 0) DText (p_head f) -> Forall2 (text_row rnd cols) (p_lines f) rows ->
  exists pts, zVec3DDataFReadPCD fuel rnd cd lzf f = PDone pts /\ forall v, List.In v pts -> v = p.
Proof.
  intros fuel rnd cd lzf cols w h p f rows NE A ND H F. eexists. split; [apply (read_text fuel rnd cd lzf cols w h p (Q4 0 0 0 0) f (p_lines f) rows); auto|].
  intros v I. assert (I2 : List.In v (taken (viewFrame p (Q4 0 0 0 0)) cols rows)) by (rewrite <- (firstn_skipn (w * h)); apply in_or_app; left; exact I).
  unfold taken in I2. apply in_flat_map in I2. destruct I2 as (xs & _ & J). destruct (row_point cols xs) as [u|]; [|destruct J]. destruct J as [<-|[]].
  assert (N : zEPNorm (Q4 0 0 0 0) = 0) by (unfold zEPNorm, zEPInnerProd, zVec3DInnerProd, exv; cbn [qw qx qy qz vx vy vz]; replace (0 * 0 + (0 * 0 + 0 * 0 + 0 * 0)) with 0 by ring; apply sqrt_0).
  unfold viewFrame, zEPNormalize. rewrite N, zIsTiny_0. cbn [snd]. unfold zXform3D. cbn [fatt fpos]. destruct p, u. unfold zMulMat3DVec3D. apply vec3_ext; qred; cbn; ring.
Qed.

(** ** Compressed files *)
Lemma com_column_empty n : forall cd r size s d, d_size d = 0%nat -> d_method d = MArray -> comColumn n cd r size s d = Some (s, d).
Proof.
  induction n as [|n IH]; intros cd r size s d Z M; cbn [comColumn]; [reflexivity|]. assert (E : zVecXDDataFetch d = (d, None)) by (unfold zVecXDDataFetch, zVecXDDataPeek; rewrite M; cbn [listlike]; rewrite Z; reflexivity).
  rewrite E. apply IH; assumption.
Qed.
Lemma com_fields_empty cd n fs : forall rs s d, d_size d = 0%nat -> d_method d = MArray -> exists d', comFields cd n fs rs s d = Some d' /\ d_size d' = 0%nat.
Proof.
  induction fs as [|f fs IH]; intros rs s d Z M; cbn [comFields]; [exists d; auto|]. destruct rs as [|r rs]; [exists d; auto|].
  assert (RZ : d_size (zVecXDDataRewind d) = 0%nat /\ d_method (zVecXDDataRewind d) = MArray) by (unfold zVecXDDataRewind; rewrite M; cbn [listlike d_size d_method]; auto). destruct RZ as [RZ RM].
  destruct (pf_type f); [rewrite com_column_empty by assumption; apply IH; assumption|apply IH; assumption].
Qed.
Lemma pcd_compressed_refuted : forall fuel rnd cd lzf cols w h p q f packed rest out, cols <> [] -> Forall admissible cols ->
  pcd_header cols w h p q DCompressed (p_head f) -> (0 < Z.of_nat (length packed) < 2 ^ 32)%Z -> (0 < Z.of_nat (length out) < 2 ^ 32)%Z ->
  p_bytes f = low_first 4 (Z.of_nat (length packed)) ++ low_first 4 (Z.of_nat (length out)) ++ packed ++ rest -> lzf packed (length out) = Some out ->
  zVec3DDataFReadPCD fuel rnd cd lzf f = PDone [].
Proof.
  intros fuel rnd cd lzf cols w h p q f packed rest out NE A H LP LO B U. unfold zVec3DDataFReadPCD. rewrite (header_reads _ _ _ _ _ _ _ NE A H). cbn [c_width c_height c_datatype c_field c_view formatOf].
  rewrite nn. unfold assignBINCOM. change (assignAll (fun f => assignASCII f) (map fieldOf cols)) with (assignAll assignASCII (map fieldOf cols)). rewrite (assign_ascii cols A), zn. unfold comFRead. rewrite B.
  set (a := low_first 4 (Z.of_nat (length packed))). set (b := low_first 4 (Z.of_nat (length out))).
  assert (LA : length a = 4%nat) by apply low_length. assert (LB : length b = 4%nat) by apply low_length.
  assert (VA : unsignedZ a = Z.of_nat (length packed)) by (apply low_value; change (256 ^ Z.of_nat 4)%Z with (2 ^ 32)%Z; lia).
  assert (VB : unsignedZ b = Z.of_nat (length out)) by (apply low_value; change (256 ^ Z.of_nat 4)%Z with (2 ^ 32)%Z; lia).
  destruct (Nat.ltb_spec (length (a ++ b ++ packed ++ rest)) 8) as [W|_]; [rewrite !app_length in W; lia|].
  assert (T1 : firstn 4 (a ++ b ++ packed ++ rest) = a) by (rewrite <- LA, firstn_app, firstn_all, Nat.sub_diag; cbn [firstn]; apply app_nil_r).
  assert (T2 : skipn 4 (a ++ b ++ packed ++ rest) = b ++ packed ++ rest) by (rewrite <- LA at 1; rewrite skipn_app, skipn_all, Nat.sub_diag; reflexivity).
  assert (T3 : firstn 4 (b ++ packed ++ rest) = b) by (rewrite <- LB, firstn_app, firstn_all, Nat.sub_diag; cbn [firstn]; apply app_nil_r).
  assert (T4 : skipn 8 (a ++ b ++ packed ++ rest) = packed ++ rest).
  { rewrite app_assoc. replace 8%nat with (length (a ++ b)) by (rewrite app_length; lia). rewrite skipn_app, skipn_all, Nat.sub_diag. reflexivity. }
  rewrite T1, T2, T3, T4, VA, VB, !Nat2Z.id. cbv zeta.
  destruct (Nat.eqb_spec (length packed) 0) as [W|_]; [lia|]. destruct (Nat.eqb_spec (length out) 0) as [W|_]; [lia|]. destruct (Nat.ltb_spec (length (packed ++ rest)) (length packed)) as [W|_]; [rewrite app_length in W; lia|]. cbn [orb].
  assert (T5 : firstn (length packed) (packed ++ rest) = packed) by (rewrite firstn_app, firstn_all, Nat.sub_diag; cbn [firstn]; apply app_nil_r). rewrite T5, U, Nat.eqb_refl. cbn [negb].
  match goal with |- context[comFields ?c ?n ?fs ?rs ?s ?d] => destruct (com_fields_empty c n fs rs s d eq_refl eq_refl) as (d' & -> & Z) end.
  unfold points_of. rewrite Z. reflexivity.
Qed.

(** ** Headers that are not in order *)
Lemma comments_skip n ls ps p : headerFRead (repeat PComment n ++ ls) ps p = headerFRead ls ps p.
Proof. induction n as [|n IH]; cbn [repeat app headerFRead]; [reflexivity|exact IH]. Qed.
Lemma advance_none t ps : ~ List.In t (map fst ps) -> advance t ps = None.
Proof. induction ps as [|[k r] ps IH]; intros N; cbn [advance]; [reflexivity|]. destruct (String.eqb_spec t k) as [E|E]; [exfalso; apply N; left; symmetry; exact E|apply IH; intros I; apply N; right; exact I]. Qed.
Lemma pcd_unknown : forall fuel rnd cd lzf f n t ws ls, p_head f = repeat PComment n ++ PWords (t :: ws) :: ls ->
  ~ List.In (w_text t) ["VERSION"; "FIELDS"; "SIZE"; "TYPE"; "COUNT"; "WIDTH"; "HEIGHT"; "VIEWPOINT"; "POINTS"; "DATA"]%string ->
  zVec3DDataFReadPCD fuel rnd cd lzf f = PUndef.
Proof. intros fuel rnd cd lzf f n t ws ls E N. unfold zVec3DDataFReadPCD. rewrite E, comments_skip. cbn [headerFRead]. rewrite advance_none by exact N. reflexivity. Qed.
Lemma pcd_order : forall fuel rnd cd lzf f n a wd m t ws ls, p_head f = repeat PComment n ++ PWords [a; wd] :: repeat PComment m ++ PWords (t :: ws) :: ls ->
  w_text a = "WIDTH"%string -> List.In (w_text t) ["VERSION"; "FIELDS"; "SIZE"; "TYPE"; "COUNT"]%string ->
  zVec3DDataFReadPCD fuel rnd cd lzf f = PUndef.
Proof.
  intros fuel rnd cd lzf f n a wd m t ws ls E A I. unfold zVec3DDataFReadPCD. rewrite E, comments_skip. cbn [headerFRead]. rewrite A.
  change (advance "WIDTH" zPCDProperty) with (Some (skipn 5 zPCDProperty)). cbn [skipn zPCDProperty readWidth]. change (String.eqb "WIDTH" "DATA") with false. cbv iota. rewrite comments_skip. cbn [headerFRead].
  rewrite advance_none; [reflexivity|]. cbn [map fst]. intros J. destruct I as [I|[I|[I|[I|[I|[]]]]]]; rewrite <- I in J; cbn [List.In] in J; repeat (destruct J as [J|J]; [discriminate J|]); exact J.
Qed.
(** no TYPE line *)
Lemma pcd_untyped : forall fuel rnd cd lzf f a ws b zs wd wn hd hn dt dn, p_head f = [PWords (a :: ws); PWords (b :: zs); PWords [wd; wn]; PWords [hd; hn]; PWords [dt; dn]] ->
  w_text a = "FIELDS"%string -> List.In "x"%string (map w_text ws) -> w_text b = "SIZE"%string -> Forall (fun w => w_text w = "4"%string) zs -> length zs = length ws ->
  w_text wd = "WIDTH"%string -> word_num wn 1 -> w_text hd = "HEIGHT"%string -> word_num hn 1 -> w_text dt = "DATA"%string -> List.In (w_text dn) ["ascii"; "binary"; "binary_compressed"]%string ->
  zVec3DDataFReadPCD fuel rnd cd lzf f = PUndef.
Proof.
  intros fuel rnd cd lzf f a ws b zs wd wn hd hn dt dn E A I B ZS L WD WN HD HN DT DN. unfold zVec3DDataFReadPCD. rewrite E. cbn [headerFRead]. rewrite A.
  change (advance "FIELDS" zPCDProperty) with (Some (skipn 1 zPCDProperty)). cbn [skipn zPCDProperty].
  destruct ws as [|w0 ws']; [destruct I|]. set (ws := w0 :: ws') in *. 
  assert (RF : readFields zPCDInit ws = SOk (PCD (map (fun w => PFld (nameIx (w_text w)) 0 0 None) ws) 0 0 (F3 (V3 0 0 0) ZMAT3DIDENT) None)) by reflexivity. rewrite RF. change (String.eqb "FIELDS" "DATA") with false. cbv iota.
  rewrite B. match goal with |- context[advance "SIZE" ?ps] => change (advance "SIZE" ps) with (Some (skipn 1 ps)) end. cbn [skipn].
  assert (RS : overFields sizeField (map (fun w => PFld (nameIx (w_text w)) 0 0 None) ws) zs = Some (map (fun w => PFld (nameIx (w_text w)) 4 2 None) ws)).
  { clear - ZS L. revert zs ZS L. clearbody ws. induction ws as [|w ws IH]; intros zs ZS L; cbn [map overFields]; [reflexivity|]. destruct zs as [|z zs]; [discriminate L|]. inversion ZS as [|? ? Z1 Z2]; subst.
    assert (E : sizeField (PFld (nameIx (w_text w)) 0 0 None) z = Some (PFld (nameIx (w_text w)) 4 2 None)) by (unfold sizeField; rewrite Z1; reflexivity). rewrite E, (IH zs Z2); [reflexivity|]. cbn [length] in L. lia. }
  unfold readSize. cbn [c_field]. rewrite RS. cbn [setFields c_width c_height c_view c_datatype]. change (String.eqb "SIZE" "DATA") with false. cbv iota.
  rewrite WD. match goal with |- context[advance "WIDTH" ?ps] => change (advance "WIDTH" ps) with (Some (skipn 3 ps)) end. cbn [skipn readWidth c_field c_height c_view c_datatype]. change (String.eqb "WIDTH" "DATA") with false. cbv iota.
  rewrite HD. match goal with |- context[advance "HEIGHT" ?ps] => change (advance "HEIGHT" ps) with (Some (skipn 1 ps)) end. cbn [skipn readHeight c_field c_width c_view c_datatype]. change (String.eqb "HEIGHT" "DATA") with false. cbv iota.
  rewrite DT. match goal with |- context[advance "DATA" ?ps] => change (advance "DATA" ps) with (Some (skipn 3 ps)) end. cbn [skipn]. unfold word_num in *. rewrite (atoi_numeral _ _ WN), (atoi_numeral _ _ HN).
  assert (NA : forall g, (forall w, w_text w = "x"%string -> g (PFld (nameIx (w_text w)) 4 2 None) = None) -> forall B (r : B) (k : list (option (nat * vtp)) -> B), match assignAll g (map (fun w => PFld (nameIx (w_text w)) 4 2 None) ws) with None => r | Some rs => k rs end = r).
  { intros g G B0 r k. assert (X : assignAll g (map (fun w => PFld (nameIx (w_text w)) 4 2 None) ws) = None); [|rewrite X; reflexivity]. clear - G I. clearbody ws. induction ws as [|w ws IH]; [destruct I|]. cbn [map assignAll]. destruct I as [I|I]; [rewrite (G w I); reflexivity|]. rewrite (IH I). destruct (g _); reflexivity. }
  assert (NB : forall B (r : B) (k : list (option (option nat * vtp)) -> B), match assignAll assignBIN (map (fun w => PFld (nameIx (w_text w)) 4 2 None) ws) with None => r | Some rs => k rs end = r).
  { intros B0 r k. reflexivity. }
  assert (GA : forall w, w_text w = "x"%string -> assignASCII (PFld (nameIx (w_text w)) 4 2 None) = None) by (intros w ->; reflexivity).
  destruct DN as [D|[D|[D|[]]]]; unfold readData; rewrite <- D; cbn [attrFind String.eqb Ascii.eqb Bool.eqb c_field c_width c_height c_view c_datatype]; change (String.eqb "DATA" "DATA") with true; cbv iota; cbn [c_field c_width c_height c_view c_datatype].
  - change (Z.ltb (1 * 1) 0) with false. cbv iota. apply (NA assignASCII GA).
  - change (Z.ltb (1 * 1) 0) with false. cbv iota. apply NB.
  - change (Z.ltb (1 * 1) 0) with false. cbv iota. apply (NA assignBINCOM GA).
Qed.
(** no FIELDS line: a binary file is read for ever *)
Lemma pcd_forever : forall fuel rnd cd lzf f wd wn hd hn dt dn w h, p_head f = [PWords [wd; wn]; PWords [hd; hn]; PWords [dt; dn]] ->
  w_text wd = "WIDTH"%string -> word_num wn (Z.of_nat w) -> w_text hd = "HEIGHT"%string -> word_num hn (Z.of_nat h) -> w_text dt = "DATA"%string -> w_text dn = "binary"%string ->
  zVec3DDataFReadPCD fuel rnd cd lzf f = PForever.
Proof.
  intros fuel rnd cd lzf f wd wn hd hn dt dn w h E WD WN HD HN DT DN. unfold zVec3DDataFReadPCD. rewrite E. cbn [headerFRead]. rewrite WD.
  change (advance "WIDTH" zPCDProperty) with (Some (skipn 5 zPCDProperty)). cbn [skipn zPCDProperty readWidth c_field c_height c_view c_datatype]. change (String.eqb "WIDTH" "DATA") with false. cbv iota.
  rewrite HD. match goal with |- context[advance "HEIGHT" ?ps] => change (advance "HEIGHT" ps) with (Some (skipn 1 ps)) end. cbn [skipn readHeight c_field c_width c_view c_datatype]. change (String.eqb "HEIGHT" "DATA") with false. cbv iota.
  rewrite DT. match goal with |- context[advance "DATA" ?ps] => change (advance "DATA" ps) with (Some (skipn 3 ps)) end. cbn [skipn]. unfold word_num in *. rewrite (atoi_numeral _ _ WN), (atoi_numeral _ _ HN).
  unfold readData. rewrite DN. cbn [attrFind String.eqb Ascii.eqb Bool.eqb c_field c_width c_height c_view c_datatype]. change (String.eqb "DATA" "DATA") with true. cbv iota. cbn [c_field c_width c_height c_view c_datatype zPCDInit assignAll]. rewrite nn.
  generalize (@zVecXDDataInitArray vec3 (Z.to_nat (Z.of_nat w * Z.of_nat h))) as d.
  assert (G : forall fuel d, binFRead fuel cd [] (F3 (V3 0 0 0) ZMAT3DIDENT) (p_bytes f) false d = None) by (induction fuel0 as [|n IH]; intros d; cbn [binFRead binRow]; [reflexivity|apply IH]).
  intros d. rewrite G. reflexivity.
Qed.

(** ** Round trips *)
Lemma decimal_value fuel : forall n, (n < 10 ^ Datatypes.S fuel)%nat -> are_digits (decimal fuel n) /\ digits_value (decimal fuel n) = Z.of_nat n.
Proof.
  induction fuel as [|fuel IH]; intros n H; cbn [decimal].
  - split; [split; [discriminate|constructor; [cbn in H; lia|constructor]]|unfold digits_value; cbn [fold_left]; lia].
  - destruct (Nat.ltb_spec n 10) as [L|L].
    + split; [split; [discriminate|constructor; [exact L|constructor]]|unfold digits_value; cbn [fold_left]; lia].
    + assert (D : (n / 10 < 10 ^ Datatypes.S fuel)%nat) by (apply Nat.div_lt_upper_bound; [lia|exact H]). destruct (IH _ D) as [[NE F] V].
      assert (M : (n mod 10 < 10)%nat) by (apply Nat.mod_upper_bound; lia). split.
      * split; [destruct (decimal fuel (n / 10)); discriminate|]. apply Forall_app. split; [exact F|]. constructor; [exact M|constructor].
      * unfold digits_value in *. rewrite fold_left_app. cbn [fold_left]. rewrite V. assert (Q := Nat.div_mod n 10). lia.
Qed.
Lemma show_nat n : numeral (showNat n) (Z.of_nat n).
Proof.
  unfold showNat. assert (H : (n < 10 ^ Datatypes.S n)%nat) by (assert (W := Nat.pow_gt_lin_r 10 (Datatypes.S n)); lia). destruct (decimal_value n n H) as [A V]. rewrite <- V. constructor. exact A.
Qed.
Lemma num1 d : (d < 10)%nat -> numeral (digits_text [d]) (Z.of_nat d).
Proof. intros H. replace (Z.of_nat d) with (digits_value [d]) by (unfold digits_value; cbn [fold_left]; lia). constructor. split; [discriminate|]. constructor; [exact H|constructor]. Qed.
Definition xyz : list column := [Column "x" CReal 8; Column "y" CReal 8; Column "z" CReal 8].
Lemma xyz_ok : xyz <> [] /\ Forall admissible xyz /\ NoDup (map c_name xyz).
Proof.
  split; [discriminate|]. split.
  - assert (A : forall n, admissible (Column n CReal 8)) by (intros n; split; [cbn; auto|intros _; right; reflexivity]). repeat (constructor; [apply A|]). constructor.
  - cbn [map xyz c_name]. repeat (constructor; [intros H; repeat (destruct H as [H|H]; [discriminate H|]); exact H|]). constructor.
Qed.
Lemma written_header n f : pcd_header xyz n 1 (V3 0 0 0) (Q4 1 0 0 0) f (headerFWrite n ++ [PWords [tw "DATA"; tw (data_name f)]]).
Proof.
  assert (N8 : word_num (tn "8" 8) 8) by (apply (num1 8); lia). assert (N1 : word_num (tn "1" 1) 1) by (apply (num1 1); lia).
  unfold pcd_header, headerFWrite. cbn [app filter not_comment].
  exists [PWords [tw "VERSION"; tn ".7" (7/10)]]. do 3 eexists. exists [PWords [tw "COUNT"; tn "1" 1; tn "1" 1; tn "1" 1]]. do 2 eexists.
  exists [PWords [tw "VIEWPOINT"; tn "0" 0; tn "0" 0; tn "0" 0; tn "1" 1; tn "0" 0; tn "0" 0; tn "0" 0]], [PWords [tw "POINTS"; tn (showNat n) (INR n)]]. eexists.
  split; [reflexivity|]. split; [right; eexists; split; [reflexivity|]; do 2 eexists; split; [reflexivity|]; split; [reflexivity|]; eexists; split; [left; reflexivity|left; reflexivity]|].
  split; [do 2 eexists; split; [reflexivity|]; split; [reflexivity|repeat constructor]|].
  split; [do 2 eexists; split; [reflexivity|]; split; [reflexivity|repeat (constructor; [exact N8|]); constructor]|].
  split; [do 2 eexists; split; [reflexivity|]; split; [reflexivity|repeat constructor]|].
  split; [right; eexists; split; [reflexivity|]; do 2 eexists; split; [reflexivity|]; split; [reflexivity|repeat (constructor; [exact N1|]); constructor]|].
  split; [do 2 eexists; split; [reflexivity|]; split; [reflexivity|]; eexists; split; [reflexivity|apply show_nat]|].
  split; [do 2 eexists; split; [reflexivity|]; split; [reflexivity|]; eexists; split; [reflexivity|exact N1]|].
  split; [right; eexists; split; [reflexivity|]; do 2 eexists; split; [reflexivity|]; split; [reflexivity|reflexivity]|].
  split; [right; eexists; split; [reflexivity|]; do 2 eexists; split; [reflexivity|]; split; [reflexivity|]; eexists; split; [reflexivity|rewrite Nat.mul_1_r; apply show_nat]|].
  do 2 eexists. split; [reflexivity|]. split; [reflexivity|]. eexists. split; reflexivity.
Qed.
Lemma one_big : zTOL < sqrt (qnorm2 (Q4 1 0 0 0)).
Proof. unfold qnorm2. cbn [qw qx qy qz]. replace (1 * 1 + 0 * 0 + 0 * 0 + 0 * 0) with 1 by ring. rewrite sqrt_1. assert (H := zTOL_small). lra. Qed.
Lemma xyz_cloud (g : R -> R) pts : cloud xyz (V3 0 0 0) (Q4 1 0 0 0) (map (fun v => [Some (g (vx v)); Some (g (vy v)); Some (g (vz v))]) pts) = map (fun v => V3 (g (vx v)) (g (vy v)) (g (vz v))) pts.
Proof.
  unfold cloud. induction pts as [|v pts IH]; [reflexivity|]. cbn [map flat_map]. rewrite IH.
  change (row_point xyz [Some (g (vx v)); Some (g (vy v)); Some (g (vz v))]) with (Some (V3 (g (vx v)) (g (vy v)) (g (vz v)))). cbn [app]. rewrite seen_ident. reflexivity.
Qed.
Lemma pcd_text_round_trip : forall fuel rnd cd lzf pr txt pts f, zVec3DDataFWritePCD pr txt cd "ascii" pts = (true, f) ->
  zVec3DDataFReadPCD fuel rnd cd lzf f = PDone (map (fun v => V3 (pr (vx v)) (pr (vy v)) (pr (vz v))) pts).
Proof.
  intros fuel rnd cd lzf pr txt pts f E. unfold zVec3DDataFWritePCD in E. change (attrFind "ascii" ["ascii"; "binary"; "binary_compressed"]%string) with (Some 0%nat) in E. cbv iota in E. injection E as <-.
  destruct xyz_ok as (NE & A & ND). rewrite <- (xyz_cloud pr pts).
  assert (F : Forall2 (text_row rnd xyz) (map (fun v => map (fun x => tn (txt x) (pr x)) [vx v; vy v; vz v]) pts) (map (fun v => [Some (pr (vx v)); Some (pr (vy v)); Some (pr (vz v))]) pts)).
  { induction pts as [|v pts IH]; cbn [map]; [constructor|]. constructor; [|exact IH]. unfold xyz.
    constructor; [intros _; apply (CT_double rnd (Column "x" CReal 8) (tn (txt (vx v)) (pr (vx v)))); reflexivity|].
    constructor; [intros _; apply (CT_double rnd (Column "y" CReal 8) (tn (txt (vy v)) (pr (vy v)))); reflexivity|].
    constructor; [intros _; apply (CT_double rnd (Column "z" CReal 8) (tn (txt (vz v)) (pr (vz v)))); reflexivity|constructor]. }
  apply (pcd_text fuel rnd cd lzf xyz (length pts) 1 (V3 0 0 0) (Q4 1 0 0 0) (PFile (headerFWrite (length pts) ++ [PWords [tw "DATA"; tw "ascii"]]) (map (fun v => map (fun x => tn (txt x) (pr x)) [vx v; vy v; vz v]) pts) []) _ NE A ND one_big (written_header _ DText) F). rewrite map_length. lia.
Qed.
Lemma pcd_binary_round_trip : forall fuel rnd cd lzf pr txt pts f, Forall (kept3 cd) pts -> zVec3DDataFWritePCD pr txt cd "binary" pts = (true, f) -> (length pts < fuel)%nat ->
  zVec3DDataFReadPCD fuel rnd cd lzf f = PDone pts.
Proof.
  intros fuel rnd cd lzf pr txt pts f X E FU. unfold zVec3DDataFWritePCD in E. change (attrFind "binary" ["ascii"; "binary"; "binary_compressed"]%string) with (Some 1%nat) in E. cbv iota in E. injection E as <-.
  destruct xyz_ok as (NE & A & ND).
  assert (C : cloud xyz (V3 0 0 0) (Q4 1 0 0 0) (map (fun v => [Some (vx v); Some (vy v); Some (vz v)]) pts) = pts) by (rewrite (xyz_cloud (fun x => x) pts); rewrite <- (map_id pts) at 2; apply map_ext; intros []; reflexivity).
  assert (F : Forall2 (byte_row cd xyz) (map (fun v => bytes_of cd (vx v) ++ bytes_of cd (vy v) ++ bytes_of cd (vz v) ++ []) pts) (map (fun v => [Some (vx v); Some (vy v); Some (vz v)]) pts)).
  { clear - X. induction X as [|v pts (K1 & K2 & K3) X IH]; cbn [map]; [constructor|]. constructor; [|exact IH]. unfold xyz.
    assert (B : forall n x, kept cd x -> cell_bytes cd (Column n CReal 8) (bytes_of cd x) (Some x)) by (intros n x [KL KD]; rewrite <- KD; apply CB_double; [reflexivity|reflexivity|exact KL]).
    constructor; [apply B, K1|]. constructor; [apply B, K2|]. constructor; [apply B, K3|constructor]. }
  set (fl := PFile (headerFWrite (length pts) ++ [PWords [tw "DATA"; tw "binary"]]) [] (flat_map (fun v => bytes_of cd (vx v) ++ bytes_of cd (vy v) ++ bytes_of cd (vz v)) pts)).
  assert (B : p_bytes fl = concat (map (fun v => bytes_of cd (vx v) ++ bytes_of cd (vy v) ++ bytes_of cd (vz v) ++ []) pts)) by (cbn [p_bytes fl]; rewrite flat_map_concat_map; f_equal; apply map_ext; intros v; rewrite app_nil_r; reflexivity).
  assert (FU2 : (length (map (fun v => [Some (vx v); Some (vy v); Some (vz v)]) pts) < fuel)%nat) by (rewrite map_length; exact FU).
  destruct (pcd_binary fuel rnd cd lzf xyz (length pts) 1 (V3 0 0 0) (Q4 1 0 0 0) fl _ _ NE A ND one_big (written_header _ DBinary) B F FU2) as [_ R].
  rewrite C in R. apply R. lia.
Qed.

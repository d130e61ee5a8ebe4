(** Shape sections: placing, mirroring, computed axes, loops, bad numbers. *)
From Coq Require Import Ascii String Lra Lia List.
From Verif Require Import Base FactsVec FactsAlg FactsMat FactsMat2 FactsObb SpecZtk ModelZtk FactsZtk.
Import ListNotations.
Open Scope R_scope.

Lemma rodm_neg u t : rodm (vneg u) (- t) = rodm u t.
Proof. unfold rodm. rewrite cos_neg, sin_neg. destruct u as [x y z]. spec_unfold. f_equal; ring. Qed.
Lemma rodm_0 u : rodm u 0 = mid.
Proof. unfold rodm. rewrite cos_0, sin_0. destruct u as [x y z]. spec_unfold. f_equal; ring. Qed.
Lemma negl_zero : negligible v3zero.
Proof. unfold negligible, v3zero; cbn [vx vy vz]. rewrite Rabs_R0. pose proof zTOL_pos. auto. Qed.
Lemma aa_zero : zMat3DFromAA (V3 0 0 0) = mid.
Proof. destruct (fromaa_full (V3 0 0 0)) as (_ & _ & N & _). apply N. exact negl_zero. Qed.
Lemma norm_scale k v : norm (vscale k v) = Rabs k * norm v.
Proof. unfold norm. replace (dot (vscale k v) (vscale k v)) with ((k * k) * dot v v) by (destruct v; spec_unfold; ring). rewrite sqrt_mult_alt by nra. rewrite <- (sqrt_Rsqr_abs k). reflexivity. Qed.
(** the matrix made from the axis times the angle *)
Lemma aa_turn u t : norm u = 1 -> t = 0 \/ ~ negligible (vscale t u) -> zMat3DFromAA (vscale t u) = rodm u t.
Proof.
  intros U [-> | N].
  - rewrite rodm_0. replace (vscale 0 u) with (V3 0 0 0) by (destruct u; spec_unfold; f_equal; ring). exact aa_zero.
  - destruct (fromaa_full (vscale t u)) as (_ & _ & _ & K). destruct (K N) as (_ & n & Un & E & ->). rewrite norm_scale, U, Rmult_1_r in *.
    assert (T0 : t <> 0). { intros ->. apply N. replace (vscale 0 u) with v3zero by (destruct u; spec_unfold; f_equal; ring). exact negl_zero. }
    destruct (Rle_or_lt 0 t) as [P|P].
    + rewrite (Rabs_right t) in * by lra. f_equal. destruct n as [a b c], u as [x y z]. spec_unfold. injection E as A B C. f_equal; apply (Rmult_eq_reg_l t); lra.
    + rewrite (Rabs_left t) in * by lra. rewrite <- (rodm_neg u t). f_equal. destruct n as [a b c], u as [x y z]. spec_unfold. injection E as A B C. f_equal; apply (Rmult_eq_reg_l t); lra.
Qed.
Lemma read_aa x y z a : ~ negligible (V3 x y z) -> let u := vscale (1 / norm (V3 x y z)) (V3 x y z) in let t := a * PI / 180 in
  zAAFromZTK [TNum x; TNum y; TNum z; TNum a] = Some (vscale t u).
Proof.
  intros N u t. unfold zAAFromZTK, zVec3DFromZTK, nums. cbn [par ZTKDoubles ZTKDouble tok_num nthR nth fst snd].
  destruct (zVec3DNormalizeDRC (V3 x y z)) as (n, w) eqn:E.
  assert (W : w = u). { pose proof (normalizeDRC_ok _ N) as K. rewrite E in K. exact K. }
  assert (Hn : n = norm (V3 x y z)). { unfold zVec3DNormalizeDRC, zVec3DNormalize in E. rewrite (proj2 (zVec3DIsTiny_false _) N) in E. injection E as <- _. reflexivity. }
  assert (P : 0 < n). { rewrite Hn. apply sqrt_lt_R0. exact (dot_pos_not_negl _ N). }
  destruct (Rltb_reflect 0 n); [|lra]. rewrite W. unfold zDeg2Rad. fold t. reflexivity.
Qed.
Lemma read_aa_par x y z r : exists aa, zAAFromZTK (TPar [x; y; z] :: r) = Some aa /\ zMat3DFromAA aa = mid.
Proof.
  unfold zAAFromZTK, zVec3DFromZTK, nums. cbn [par length Nat.leb firstn nthR nth ZTKDouble tok_num fst].
  destruct (zVec3DNormalizeDRC (V3 x y z)) as (n, w). eexists. split; [reflexivity|].
  replace (zVec3DMul w (zDeg2Rad 0)) with (V3 0 0 0) by (unfold zDeg2Rad, zVec3DMul; f_equal; field). destruct (Rltb 0 n); exact aa_zero.
Qed.

(** ** Placing *)
Section Place.
Variables (sarr : option (list shape)) (on tn : option (list (option string))).
Notation T := (shapePrp sarr on tn).
Definition same (s s' : sst) : Prop := sshape s = sshape s' /\ simp s = simp s'.
Definition samer (r r' : rd sst) (s s' : sst) : Prop :=
  match r, r' with
  | ROk t, ROk t' => same t t' /\ sfrm t = sfrm s /\ sxf t = sxf s /\ sfrm t' = sfrm s' /\ sxf t' = sxf s'
  | RFail t, RFail t' => sshape t = sshape t'
  | RUndef, RUndef => True
  | _, _ => False
  end.
Lemma step_plain p : List.In p T -> placing (pkey p) = false -> forall s s' i v, same s s' -> samer (pev p s i v) (pev p s' i v) s s'.
Proof.
  intros I P s s' i v (E1 & E2). unfold shapePrp in I. cbn [List.In] in I.
  destruct s as [h im f xf], s' as [h' im' f' xf']. cbn [sshape simp] in E1, E2. subst h' im'.
  repeat (destruct I as [<-|I]; [try discriminate P|]); [| | | | | |contradiction]; cbn [pev].
  - unfold shName. destruct (ZTKVal v); [|exact Logic.I]. unfold onShape; cbn [sshape simp sfrm sxf]. destruct (findShape sarr s); cbn [rdmap samer sshape]; [reflexivity|unfold same; cbn; auto].
  - unfold shType. destruct (ZTKVal v); [|exact Logic.I]. unfold onShape; cbn [sshape simp sfrm sxf]. destruct (zShape3DQueryAssign s); cbn [rdmap samer sshape]; [unfold same; cbn; auto|reflexivity|exact Logic.I].
  - unfold shOptic. destruct (ZTKVal v); [|exact Logic.I]. unfold onShape; cbn [sshape simp sfrm sxf rdmap samer]. unfold same; cbn; auto.
  - unfold shTex. destruct (ZTKVal v); [|exact Logic.I]. unfold onShape; cbn [sshape simp sfrm sxf rdmap samer]. unfold same; cbn; auto.
  - unfold shMirror. destruct (ZTKVal v) as [w|]; [|exact Logic.I]. cbn [sshape simp sfrm sxf].
    destruct sarr as [l|]; [|cbn; unfold same; cbn; auto]. destruct (findShape (Some l) w) as [j|]; [|cbn; unfold same; cbn; auto].
    destruct (nth_error l j) as [ref|]; [|destruct v as [|? [|[] ?]]; exact Logic.I]. destruct v as [|a [|[] r]]; try exact Logic.I; [reflexivity|].
    destruct (zShape3DMirror ref h (zAxisFromStr s)); cbn; [unfold same; cbn; auto|reflexivity|exact Logic.I].
  - exact Logic.I.
Qed.
Lemma find_in k p : find (fun p => String.eqb (pkey p) k) T = Some p -> List.In p T /\ pkey p = k.
Proof. intros F. apply find_some in F. destruct F as (I & E). apply String.eqb_eq in E. auto. Qed.
Definition nonempty {A} (l : list A) : bool := match l with [] => false | _ => true end.
(** the effect of one placing key *)
Lemma step_place k v l g s i : placed (sfrm s) ((k, v) :: l) g -> exists p f, find (fun p => String.eqb (pkey p) k) T = Some p /\
  pev p s i v = ROk (ST (sshape s) (simp s) f true) /\ placed f l g /\ (over (pnum p) i = true -> i <> 0%nat /\ k <> "rot"%string) .
Proof.
  intros H. inversion H as [|f0 v0 x y z l0 g0 V P E1 E2|f0 m l0 g0 P E1 E2|f0 x y z a l0 g0 u t N A P E1 E2|f0 x y z r l0 g0 P E1 E2|f0 m p l0 g0 P E1 E2]; subst.
  - eexists. exists (F3 (V3 x y z) (fatt (sfrm s))). split; [reflexivity|]. split; [|split; [exact P|]].
    + cbn [pev]. unfold shPos. destruct V as [-> | ->]; reflexivity.
    + cbn [over pnum]. intros O. split; [intros ->; discriminate O|discriminate].
  - eexists. exists (F3 (fpos (sfrm s)) m). split; [reflexivity|]. split; [|split; [exact P|]].
    + cbn [pev]. unfold shAtt. destruct m. reflexivity.
    + cbn [over pnum]. intros O. split; [intros ->; discriminate O|discriminate].
  - eexists. exists (F3 (fpos (sfrm s)) (mmul (rodm u t) (fatt (sfrm s)))). split; [reflexivity|]. split; [|split; [exact P|discriminate]].
    cbn [pev]. unfold shRot. rewrite (read_aa x y z a N). fold u t. unfold setF. unfold zMat3DRot. rewrite zmm_spec, aa_turn; [reflexivity| |].
    + unfold u. rewrite norm_scale, Rabs_right. * field. apply Rgt_not_eq. apply sqrt_lt_R0. exact (dot_pos_not_negl _ N).
      * apply Rle_ge. apply Rlt_le. apply Rdiv_lt_0_compat; [lra|]. apply sqrt_lt_R0. exact (dot_pos_not_negl _ N).
    + destruct A as [-> | A]; [left; unfold t; field|right; exact A].
  - eexists. exists (sfrm s). split; [reflexivity|]. split; [|split; [exact P|discriminate]].
    cbn [pev]. unfold shRot. destruct (read_aa_par x y z r) as (aa & -> & M). unfold setF, zMat3DRot. rewrite M, zmm_spec, mmul_id_l. destruct (sfrm s); reflexivity.
  - eexists. exists (F3 p m). split; [reflexivity|]. split; [|split; [exact P|]].
    + cbn [pev]. unfold shFrame. destruct m, p. reflexivity.
    + cbn [over pnum]. intros O. split; [intros ->; discriminate O|discriminate].
Qed.
Definition once (d : sect) (seen : list string) : Prop := forall k, placing k = true -> k <> "rot"%string -> (occs k (map fst d) + occs k seen <= 1)%nat.
Lemma eval_place d : forall seen seen' s s' g, once d seen -> (forall k, placing k = false -> occs k seen = occs k seen') -> same s s' ->
  placed (sfrm s) (filter isPlacing d) g ->
  match evalKeys T seen s d, evalKeys T seen' s' (filter (fun e => negb (isPlacing e)) d) with
  | ROk t, ROk t' => same t t' /\ sfrm t = g /\ sxf t = orb (sxf s) (nonempty (filter isPlacing d)) /\ sfrm t' = sfrm s' /\ sxf t' = sxf s'
  | RFail t, RFail t' => sshape t = sshape t'
  | RUndef, RUndef => True
  | _, _ => False
  end.
Proof.
  induction d as [|(k, v) d IH]; intros seen seen' s s' g O E SM P.
  - cbn [filter] in *. cbn [evalKeys nonempty]. inversion P; subst. rewrite Bool.orb_false_r. auto.
  - cbn [filter]. unfold isPlacing in P |- *. cbn [filter fst] in P |- *. fold isPlacing in P |- *.
    assert (O' : once d (k :: seen)). { intros q Q1 Q2. specialize (O q Q1 Q2). cbn [map fst] in O. rewrite occs_cons in *. lia. }
    destruct (placing k) eqn:PK; cbn [negb] in *.
    + destruct (step_place k v _ g s (occs k seen) P) as (p & f & F & EV & P' & OV). cbn [evalKeys]. rewrite F.
      destruct (over (pnum p) (occs k seen)) eqn:OO. { exfalso. destruct (OV eq_refl) as (Z & NR). specialize (O k PK NR). cbn [map fst] in O. rewrite occs_cons, String.eqb_refl in O. lia. }
      rewrite EV. specialize (IH (k :: seen) seen' (ST (sshape s) (simp s) f true) s' g O').
      assert (E' : forall q, placing q = false -> occs q (k :: seen) = occs q seen'). { intros q Q. rewrite occs_cons, (E q Q). destruct (String.eqb_spec q k) as [->|]; [congruence|reflexivity]. }
      specialize (IH E' SM P'). cbn [sxf orb nonempty] in IH. cbn [nonempty]. rewrite Bool.orb_true_r. exact IH.
    + assert (E' : forall q, placing q = false -> occs q (k :: seen) = occs q (k :: seen')) by (intros q Q; rewrite !occs_cons, (E q Q); reflexivity).
      cbn [evalKeys]. destruct (find (fun p => String.eqb (pkey p) k) T) as [p|] eqn:F; [|apply IH; assumption]. rewrite (E k PK).
      destruct (over (pnum p) (occs k seen')); [apply IH; assumption|]. destruct (find_in _ _ F) as (I & KE).
      pose proof (step_plain p I ltac:(rewrite KE; exact PK) s s' (occs k seen') v SM) as SP. unfold samer in SP.
      destruct (pev p s (occs k seen') v) as [t|t|]; destruct (pev p s' (occs k seen') v) as [t'|t'|]; try contradiction; [|exact SP|exact Logic.I].
      destruct SP as (SM' & F1 & F2 & F3 & F4). rewrite <- F1 in P. specialize (IH (k :: seen) (k :: seen') t t' g O' E' SM' P). rewrite F2, F3, F4 in IH. exact IH.
Qed.
End Place.

Lemma eval_filter {S} (tbl : list (prp S)) keep d : (forall e, List.In e d -> keep e = false -> known tbl (fst e) = false) -> forall seen s, evalKeys tbl seen s d = evalKeys tbl seen s (filter keep d).
Proof.
  induction d as [|(k, v) d IH]; intros H seen s; [reflexivity|]. assert (H' : forall e, List.In e d -> keep e = false -> known tbl (fst e) = false) by (intros e I; apply H; right; exact I).
  cbn [filter]. destruct (keep (k, v)) eqn:K.
  - cbn [evalKeys]. destruct (find _ tbl) as [p|]; [|apply IH; exact H']. destruct (over _ _); [apply IH; exact H'|]. destruct (pev p s (occs k seen) v); [apply IH; exact H'|reflexivity|reflexivity].
  - change (evalKeys tbl seen s ([] ++ (k, v) :: d) = evalKeys tbl seen s (filter keep d)). rewrite skip_key; [apply IH; exact H'|]. exact (H (k, v) (or_introl eq_refl) K).
Qed.
Lemma count_filter k keep (d : sect) : (forall e, List.In e d -> keep e = false -> fst e <> k) -> ZTKCountKey k (filter keep d) = ZTKCountKey k d.
Proof.
  unfold ZTKCountKey, occs. intros H. induction d as [|e d IH]; [reflexivity|]. cbn [filter]. assert (H' : forall e, List.In e d -> keep e = false -> fst e <> k) by (intros e' I; apply H; right; exact I).
  destruct (keep e) eqn:K; cbn [map filter].
  - destruct (String.eqb k (fst e)); cbn [length]; rewrite IH by exact H'; reflexivity.
  - destruct (String.eqb_spec k (fst e)) as [E|E]; [exfalso; exact (H e (or_introl eq_refl) K (eq_sym E))|]. apply IH. exact H'.
Qed.
Lemma body_filter b (d : sect) : filter (fun e => negb (isPlacing e)) d <> [] -> bodyFromZTK b d = bodyFromZTK b (filter (fun e => negb (isPlacing e)) d).
Proof.
  intros NE.
  assert (NP : forall e, List.In e d -> negb (isPlacing e) = false -> fst e = "pos"%string \/ fst e = "att"%string \/ fst e = "rot"%string \/ fst e = "frame"%string).
  { intros e _ H. apply Bool.negb_false_iff in H. unfold isPlacing, placing in H. rewrite !Bool.orb_true_iff, !String.eqb_eq in H. tauto. }
  assert (FR : forall S (tbl : list (prp S)), known tbl "pos" = false -> known tbl "att" = false -> known tbl "rot" = false -> known tbl "frame" = false -> forall seen s, evalKeys tbl seen s d = evalKeys tbl seen s (filter (fun e => negb (isPlacing e)) d)).
  { intros S tbl A B C D seen s. apply eval_filter. intros e I K. destruct (NP e I K) as [-> | [-> | [-> | ->]]]; assumption. }
  destruct b; cbn [bodyFromZTK]; unfold ZTKEvalKey; try (rewrite FR by reflexivity; reflexivity).
  unfold zPH3DFromZTK. destruct d as [|e d]; [contradiction NE; reflexivity|]. destruct (filter (fun e0 => negb (isPlacing e0)) (e :: d)) as [|e1 d1] eqn:FE; [contradiction|].
  assert (CF : forall k, k <> "pos"%string -> k <> "att"%string -> k <> "rot"%string -> k <> "frame"%string -> ZTKCountKey k (e :: d) = ZTKCountKey k (e1 :: d1)).
  { intros k K1 K2 K3 K4. rewrite <- FE. symmetry. apply count_filter. intros e0 I K. destruct (NP e0 I K) as [-> | [-> | [-> | ->]]]; congruence. }
  rewrite !CF by discriminate. unfold ZTKEvalKey. rewrite !(FR _ phPrp eq_refl eq_refl eq_refl eq_refl). reflexivity.
Qed.
(** a section with placing keys gives the shape of the section without them,
    moved by the frame they make *)
Lemma ztk_place sarr on tn (d : sect) f h b :
  (forall k, List.In k ["pos"; "att"; "frame"]%string -> (ZTKCountKey k d <= 1)%nat) ->
  filter isPlacing d <> [] -> placed (F3 v3zero mid) (filter isPlacing d) f ->
  zShape3DFromZTK sarr on tn (filter (fun e => negb (isPlacing e)) d) = ROk h -> hbody h = Some b ->
  zShape3DFromZTK sarr on tn d = match bodyXform b f with Some b' => ROk (SH (hname h) (Some b') (hoptic h) (htex h)) | None => RUndef end.
Proof.
  intros C NE P R0 HB. unfold zShape3DFromZTK, ZTKEvalKey in R0 |- *.
  assert (O : once d []). { intros k K NR. rewrite Nat.add_0_r. apply C. unfold placing in K. rewrite !Bool.orb_true_iff, !String.eqb_eq in K. cbn [List.In]. destruct K as [[[->| ->]| ->]| ->]; auto; congruence. }
  pose proof (eval_place sarr on tn d [] [] (ST zShape3DInit false ZFRAME3DIDENT false) (ST zShape3DInit false ZFRAME3DIDENT false) f O (fun _ _ => eq_refl) (conj eq_refl eq_refl) P) as EP.
  destruct (evalKeys (shapePrp sarr on tn) [] (ST zShape3DInit false ZFRAME3DIDENT false) (filter (fun e => negb (isPlacing e)) d)) as [t'|t'|] eqn:E2; try discriminate R0.
  destruct (evalKeys (shapePrp sarr on tn) [] (ST zShape3DInit false ZFRAME3DIDENT false) d) as [t|t|]; try contradiction.
  destruct EP as ((S1 & S2) & F1 & X1 & _ & X2). cbn [sxf orb] in X1, X2. assert (X : sxf t = true) by (rewrite X1; destruct (filter isPlacing d); [congruence|reflexivity]).
  rewrite S2, S1. destruct (simp t').
  - unfold shXform in R0. rewrite X2 in R0. injection R0 as <-. unfold shXform. rewrite X, HB, F1. reflexivity.
  - destruct (hbody (sshape t')) as [b0|] eqn:HB0; [|discriminate R0].
    assert (NF : filter (fun e => negb (isPlacing e)) d <> []). { intros Z. rewrite Z in E2. cbn in E2. injection E2 as <-. discriminate HB0. }
    rewrite (body_filter b0 d NF).
    destruct (bodyFromZTK b0 (filter (fun e => negb (isPlacing e)) d)) as [b1|b1|]; try discriminate R0. unfold shXform in R0. rewrite X2 in R0. injection R0 as <-. unfold shXform. rewrite X. cbn [hbody withBody] in HB |- *. injection HB as ->. rewrite F1. reflexivity.
Qed.

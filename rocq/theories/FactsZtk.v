(** Reading back what was written: the key loop and the eight kinds of shapes. *)
From Coq Require Import Ascii String Lra Lia List.
From Verif Require Import Base FactsVec FactsObb SpecZtk ModelZtk.
Import ListNotations.
Open Scope R_scope.

(** ** The key loop *)
Section Loop.
Context {S : Type}.
Variable tbl : list (prp S).
Definition known (k : string) : bool := existsb (fun p => String.eqb (pkey p) k) tbl.
Lemma known_find k : known k = false -> find (fun p => String.eqb (pkey p) k) tbl = None.
Proof. unfold known. induction tbl as [|p l IH]; cbn; [reflexivity|]. destruct (String.eqb (pkey p) k); cbn; [discriminate|exact IH]. Qed.
Lemma find_known k p : find (fun p => String.eqb (pkey p) k) tbl = Some p -> known k = true.
Proof. intros E. destruct (known k) eqn:K; [reflexivity|]. rewrite known_find in E by exact K. discriminate. Qed.
Lemma occs_cons k k' seen : occs k (k' :: seen) = ((if String.eqb k k' then 1 else 0) + occs k seen)%nat.
Proof. unfold occs. cbn. destruct (String.eqb k k'); reflexivity. Qed.
Lemma seen_irrel d : forall seen seen' s, (forall k, known k = true -> occs k seen = occs k seen') -> evalKeys tbl seen s d = evalKeys tbl seen' s d.
Proof.
  induction d as [|(k, v) d IH]; intros seen seen' s E; [reflexivity|]. cbn [evalKeys].
  assert (E' : forall k0, known k0 = true -> occs k0 (k :: seen) = occs k0 (k :: seen')) by (intros k0 H; rewrite !occs_cons, (E k0 H); reflexivity).
  destruct (find _ tbl) as [p|] eqn:F; [|apply IH; exact E'].
  rewrite (E k (find_known _ _ F)). destruct (over (pnum p) (occs k seen')); [apply IH; exact E'|].
  destruct (pev p s (occs k seen') v); [apply IH; exact E'|reflexivity|reflexivity].
Qed.
(** keys the table does not know are of no effect *)
Lemma skip_key d1 : forall seen s k v d2, known k = false -> evalKeys tbl seen s (d1 ++ (k, v) :: d2) = evalKeys tbl seen s (d1 ++ d2).
Proof.
  induction d1 as [|(k', v') d1 IH]; intros seen s k v d2 K; cbn [app].
  - cbn [evalKeys]. rewrite (known_find _ K). apply seen_irrel. intros k0 H. rewrite occs_cons. destruct (String.eqb_spec k0 k) as [->|]; [congruence|reflexivity].
  - cbn [evalKeys]. destruct (find _ tbl) as [p|]; [|apply IH; exact K]. destruct (over (pnum p) (occs k' seen)); [apply IH; exact K|].
    destruct (pev p s (occs k' seen) v'); [apply IH; exact K|reflexivity|reflexivity].
Qed.
Definition foreign (d : sect) : Prop := Forall (fun e => known (fst e) = false) d.
Lemma skip_front d0 d seen s : foreign d0 -> evalKeys tbl seen s (d0 ++ d) = evalKeys tbl seen s d.
Proof.
  intros H. induction H as [|(k, v) d0 K _ IH]; [reflexivity|]. cbn [app]. change (evalKeys tbl seen s ([] ++ (k, v) :: d0 ++ d) = evalKeys tbl seen s d). rewrite skip_key by exact K. exact IH.
Qed.
Lemma skip_all d seen s : foreign d -> evalKeys tbl seen s d = ROk s.
Proof. intros H. rewrite <- (app_nil_r d), skip_front by exact H. reflexivity. Qed.
Lemma eval_app d1 : forall seen s d2, evalKeys tbl seen s (d1 ++ d2) =
  match evalKeys tbl seen s d1 with ROk s => evalKeys tbl (rev (map fst d1) ++ seen) s d2 | r => r end.
Proof.
  induction d1 as [|(k, v) d1 IH]; intros seen s d2; [reflexivity|]. cbn [app evalKeys map rev fst]. rewrite <- app_assoc. cbn [app].
  destruct (find _ tbl) as [p|]; [|apply IH]. destruct (over (pnum p) (occs k seen)); [apply IH|].
  destruct (pev p s (occs k seen) v); [apply IH|reflexivity|reflexivity].
Qed.
End Loop.

(** ** Values *)
Lemma read_vec p r : zVec3DFromZTK (zVec3DFPrint p ++ r) = Some (p, zVec3DFPrint p ++ r).
Proof. destruct p as [x y z]. reflexivity. Qed.
Lemma read_vec0 p : zVec3DFromZTK (zVec3DFPrint p) = Some (p, zVec3DFPrint p).
Proof. destruct p as [x y z]. reflexivity. Qed.
Lemma read_mat m : zMat3DFromZTK (zMat3DToZTK m) = Some m.
Proof. destruct m as [a b c d e f g h i]. reflexivity. Qed.
Lemma read_frame f : zFrame3DFromZTK (zFrame3DToZTK f) = Some f.
Proof. destruct f as [[x y z] [a b c d e f g h i]]. reflexivity. Qed.
Lemma read_div n : (0 < n)%Z -> zShape3DDivFromZTK [TInt n] = n.
Proof. intros H. unfold zShape3DDivFromZTK; cbn [ZTKInt fst tok_int]. destruct (Z.ltb_spec 0 n); [reflexivity|lia]. Qed.
Lemma norm_unit v : norm v = 1 -> dot v v = 1.
Proof. intros H. unfold norm in H. rewrite <- (sqrt_sqrt (dot v v)), H; [ring|]. destruct v as [x y z]. unfold dot; cbn. nra. Qed.
Lemma renorm v : norm v = 1 -> snd (zVec3DNormalizeDRC v) = v.
Proof.
  intros H. unfold zVec3DNormalizeDRC, zVec3DNormalize. rewrite (unit_not_tiny v (norm_unit v H)). cbn [snd].
  change (zVec3DNorm v) with (norm v). rewrite H. destruct v as [x y z]. unfold zVec3DMul; cbn [vx vy vz]. f_equal; field.
Qed.
Lemma noauto p : isAuto (zVec3DFPrint p) = false. Proof. reflexivity. Qed.
Lemma axis_read m i0 i1 i2 p : norm p = 1 -> axisFromZTK m i0 i1 i2 (zVec3DFPrint p) = Some (setCol m i0 p).
Proof. intros H. unfold axisFromZTK. rewrite noauto, read_vec0. cbn [option_map fst]. rewrite renorm by exact H. reflexivity. Qed.
Ltac keys := cbn [evalKeys find pkey pnum pev String.eqb Ascii.eqb Bool.eqb over occs filter length Nat.leb app map fst snd].

(** ** The kinds *)
Lemma rt_sphere s : (0 < sdiv s)%Z -> evalKeys spherePrp [] zSphere3DInit (zSphere3DFPrintZTK s) = ROk s.
Proof.
  intros H. destruct s as [c r n]. unfold zSphere3DFPrintZTK, spherePrp; cbn [scen srad sdiv] in *. keys. rewrite read_vec0. cbn [withV]. keys.
  rewrite read_div by exact H. reflexivity.
Qed.
Lemma rt_cyl c : (0 < cdiv c)%Z -> evalKeys cylPrp [] zCyl3DInit (zCyl3DFPrintZTK c) = ROk c.
Proof.
  intros H. destruct c as [a b r n]. unfold zCyl3DFPrintZTK, cylPrp; cbn [cc0 cc1 crad cdiv] in *. keys. rewrite read_vec0. cbn [withV]. keys.
  rewrite read_vec0. cbn [withV]. keys. rewrite read_div by exact H. reflexivity.
Qed.
Lemma rt_cone c : (0 < kdiv c)%Z -> evalKeys conePrp [] zCone3DInit (zCone3DFPrintZTK c) = ROk c.
Proof.
  intros H. destruct c as [a b r n]. unfold zCone3DFPrintZTK, conePrp; cbn [kcen kvert krad kdiv] in *. keys. rewrite read_vec0. cbn [withV]. keys.
  rewrite read_vec0. cbn [withV]. keys. rewrite read_div by exact H. reflexivity.
Qed.
Lemma rt_box b : unit3 (fatt (bframe b)) -> evalKeys boxPrp [] zBox3DInit (zBox3DFPrintZTK b) = ROk b.
Proof.
  destruct b as [[p m] [x y z]]. unfold unit3. cbn [fatt bframe]. intros (H0 & H1 & H2). unfold zBox3DFPrintZTK, boxPrp; cbn [bframe fpos fatt bspan vx vy vz].
  keys. rewrite read_vec0. cbn [withV]. keys. unfold boxAxis at 1. rewrite axis_read by exact H0. keys. unfold boxAxis at 1. rewrite axis_read by exact H1. keys.
  unfold boxAxis at 1. rewrite axis_read by exact H2. keys. destruct m. reflexivity.
Qed.
Lemma rt_ellips e : unit3 (fatt (elf e)) /\ (0 < eldiv e)%Z -> evalKeys ellipsPrp [] zEllips3DInit (zEllips3DFPrintZTK e) = ROk e.
Proof.
  destruct e as [[x y z] [p m] n]. unfold unit3. cbn [fatt elf eldiv]. intros ((H0 & H1 & H2) & Hn). unfold zEllips3DFPrintZTK, ellipsPrp; cbn [elf fpos fatt elrad eldiv vx vy vz].
  keys. rewrite read_vec0. cbn [withV]. keys. unfold elAxis at 1. rewrite axis_read by exact H0. keys. unfold elAxis at 1. rewrite axis_read by exact H1. keys.
  unfold elAxis at 1. rewrite axis_read by exact H2. keys. rewrite read_div by exact Hn. destruct m. reflexivity.
Qed.
Lemma rt_ecyl c : storable (ShECyl c) -> evalKeys ecylPrp [] zECyl3DInit (zECyl3DFPrintZTK c) = ROk c.
Proof.
  destruct c as [a b r0 r1 u0 u1 n]. cbn [storable ec0 ec1 ev0 ev1 ecdiv]. intros (Hn & Ha & Hu & Ho & E & Hc).
  unfold zECyl3DFPrintZTK, ecylPrp; cbn [ec0 ec1 er0 er1 ev0 ev1 ecdiv]. keys. rewrite read_vec0. cbn [withV]. keys. rewrite read_vec0. cbn [withV]. keys. rewrite read_vec0.
  unfold zECyl3DAxis; cbn [ec0 ec1 er0 er1 ev0 ev1 ecdiv]. unfold zECyl3DDefAxis. rewrite (unit_not_tiny u0 (norm_unit _ Hu)).
  unfold zVec3DOrthogonalize. change (zVec3DSub b a) with (vsub b a). rewrite (proj2 (zVec3DIsTiny_false _) Ha). change (zVec3DInnerProd (vsub b a) u0) with (dot (vsub b a) u0). rewrite Ho.
  replace (zVec3DCat u0 (- 0 / zVec3DSqrNorm (vsub b a)) (vsub b a)) with u0.
  2:{ destruct u0 as [x y z]. unfold zVec3DCat; cbn [vx vy vz]. replace (- 0 / zVec3DSqrNorm (vsub b a)) with 0 by (unfold Rdiv; ring). f_equal; ring. }
  rewrite renorm by exact Hu. change (zVec3DOuterProd (vsub b a) u0) with (cross (vsub b a) u0). rewrite (normalizeDRC_ok _ Hc). rewrite <- E.
  keys. rewrite read_div by exact Hn. reflexivity.
Qed.
(** *** polyhedra *)
Lemma occs_app k a b : occs k (a ++ b) = (occs k a + occs k b)%nat.
Proof. unfold occs. rewrite filter_app, app_length. reflexivity. Qed.
Lemma occs_const k k' n : occs k (repeat k' n) = if String.eqb k k' then n else 0%nat.
Proof. unfold occs. induction n as [|n IH]; cbn; [destruct (String.eqb k k'); reflexivity|]. destruct (String.eqb k k') eqn:E; cbn in *; [rewrite IH; reflexivity|exact IH]. Qed.
Lemma set_nth_app {A} (l r : list A) x a : set_nth (l ++ x :: r) (length l) a = Some (l ++ a :: r).
Proof. induction l as [|y l IH]; [reflexivity|]. cbn [app set_nth length]. rewrite IH. reflexivity. Qed.
Definition vline (iv : nat * vec3) : entry := ("vert"%string, TInt (Z.of_nat (fst iv)) :: zVec3DFPrint (snd iv)).
Definition fline (f : face) : entry := ("face"%string, [TInt (Z.of_nat (fi0 f)); TInt (Z.of_nat (fi1 f)); TInt (Z.of_nat (fi2 f))]).
Lemma rt_verts fs ws : forall vs seen d, occs "vert" seen = length vs ->
  evalKeys phPrp seen (PZ (PH (vs ++ repeat vert0 (length ws)) fs) []) (map vline (combine (seq (length vs) (length ws)) ws) ++ d) =
  evalKeys phPrp (repeat "vert"%string (length ws) ++ seen) (PZ (PH (vs ++ ws) fs) []) d.
Proof.
  induction ws as [|w ws IH]; intros vs seen d H; [reflexivity|]. cbn [length repeat seq combine map app]. unfold vline at 1; cbn [fst snd].
  cbn [evalKeys]. replace (find (fun p => String.eqb (pkey p) "vert") phPrp) with (Some (PRP "vert"%string None phVert)) by reflexivity. cbn [pnum over pev].
  unfold phVert at 1. cbn [ZTKInt snd]. rewrite read_vec0. cbn [zarr zph pverts pfaces]. rewrite H, set_nth_app.
  replace (vs ++ w :: repeat vert0 (length ws)) with ((vs ++ [w]) ++ repeat vert0 (length ws)) by (rewrite <- app_assoc; reflexivity).
  replace (Datatypes.S (length vs)) with (length (vs ++ [w])) by (rewrite app_length; cbn; lia). rewrite IH.
  - rewrite <- app_assoc. cbn [app]. apply seen_irrel. intros k _. rewrite ?occs_app, ?occs_cons, ?occs_app, ?occs_cons. lia.
  - rewrite occs_cons, H, app_length. cbn. lia.
Qed.
Lemma of_nat_lt n m : (n < m)%nat -> Z.leb (Z.of_nat m) (Z.of_nat n) = false.
Proof. intros H. apply Z.leb_gt. lia. Qed.
Lemma create_corner a b c n : corner_normal a b c n -> tnorm (snd (zTri3DCreate a b c)) = n.
Proof.
  unfold corner_normal. intros H. unfold zTri3DCreate. change (triOuterProd a b c) with (cross (vsub b a) (vsub c b)). destruct H as [(T & E)|(T & E)].
  - rewrite (proj2 (zVec3DIsTiny_true _) T). symmetry. exact E.
  - rewrite (proj2 (zVec3DIsTiny_false _) T). cbn [snd tnorm]. rewrite (normalizeDRC_ok _ T). symmetry. exact E.
Qed.
Lemma rt_faces vs gs : forall fs seen d, occs "face" seen = length fs ->
  Forall (fun f => exists a b c, nth_error vs (fi0 f) = Some a /\ nth_error vs (fi1 f) = Some b /\ nth_error vs (fi2 f) = Some c /\ corner_normal a b c (fnrm f)) gs ->
  evalKeys phPrp seen (PZ (PH vs (fs ++ repeat face0 (length gs))) []) (map fline gs ++ d) =
  evalKeys phPrp (repeat "face"%string (length gs) ++ seen) (PZ (PH vs (fs ++ gs)) []) d.
Proof.
  induction gs as [|g gs IH]; intros fs seen d H F; [reflexivity|]. inversion F as [|? ? (a & b & c & Ea & Eb & Ec & N) F' Eq]; subst. cbn [length repeat map app]. unfold fline at 1.
  cbn [evalKeys]. replace (find (fun p => String.eqb (pkey p) "face") phPrp) with (Some (PRP "face"%string None phFace)) by reflexivity. cbn [pnum over pev].
  assert (La : (fi0 g < length vs)%nat) by (apply nth_error_Some; congruence). assert (Lb : (fi1 g < length vs)%nat) by (apply nth_error_Some; congruence). assert (Lc : (fi2 g < length vs)%nat) by (apply nth_error_Some; congruence).
  unfold phFace at 1. cbn [ZTKInt fst snd tok_int zph pverts pfaces zarr]. rewrite !of_nat_lt by assumption.
  replace (Z.ltb (Z.of_nat (fi0 g)) 0 || Z.ltb (Z.of_nat (fi1 g)) 0 || Z.ltb (Z.of_nat (fi2 g)) 0)%bool with false by (symmetry; rewrite !Bool.orb_false_iff, !Z.ltb_ge; lia).
  rewrite !Nat2Z.id, Ea, Eb, Ec, H, set_nth_app. rewrite (create_corner _ _ _ _ N).
  replace (FC (fi0 g) (fi1 g) (fi2 g) (fnrm g)) with g by (destruct g; reflexivity).
  replace (fs ++ g :: repeat face0 (length gs)) with ((fs ++ [g]) ++ repeat face0 (length gs)) by (rewrite <- app_assoc; reflexivity). rewrite IH.
  - rewrite <- app_assoc. cbn [app]. apply seen_irrel. intros k _. rewrite ?occs_app, ?occs_cons, ?occs_app, ?occs_cons. lia.
  - rewrite occs_cons, H, app_length. cbn. lia.
  - exact F'.
Qed.
Lemma vline_keys l n : map fst (map vline (combine (seq n (length l)) l)) = repeat "vert"%string (length l).
Proof. revert n. induction l as [|v l IH]; intros n; [reflexivity|]. cbn. rewrite IH. reflexivity. Qed.
Lemma fline_keys l : map fst (map fline l) = repeat "face"%string (length l).
Proof. induction l as [|v l IH]; [reflexivity|]. cbn. rewrite IH. reflexivity. Qed.
Lemma ph_print p : pverts p <> [] -> zPH3DFPrintZTK p = map vline (combine (seq 0 (length (pverts p))) (pverts p)) ++ map fline (pfaces p).
Proof. intros H. unfold zPH3DFPrintZTK. destruct (pverts p) as [|v l] eqn:E; [congruence|]. reflexivity. Qed.
(** a polyhedron section may begin with keys of the shape *)
Lemma rt_ph d0 p : (forall e, List.In e d0 -> known phPrp (fst e) = false) -> storable (ShPH p) -> zPH3DFromZTK (d0 ++ zPH3DFPrintZTK p) = ROk p.
Proof.
  intros F (NE & FN). rewrite ph_print by exact NE. unfold zPH3DFromZTK.
  assert (NN : exists e r, d0 ++ map vline (combine (seq 0 (length (pverts p))) (pverts p)) ++ map fline (pfaces p) = e :: r).
  { destruct d0 as [|e d0]; [|eexists; eexists; reflexivity]. destruct (pverts p) as [|v l]; [congruence|]. eexists; eexists; reflexivity. }
  assert (Z : forall k, known phPrp k = true -> occs k (map fst d0) = 0%nat).
  { clear NN. intros k K. unfold occs. induction d0 as [|e d0 IH]; [reflexivity|]. cbn. destruct (String.eqb_spec k (fst e)) as [E|E]; [|apply IH; intros e' I; apply F; right; exact I].
    exfalso. specialize (F e (or_introl eq_refl)). rewrite <- E in F. congruence. }
  assert (CK : forall k, known phPrp k = true -> ZTKCountKey k (d0 ++ map vline (combine (seq 0 (length (pverts p))) (pverts p)) ++ map fline (pfaces p)) =
    ((if String.eqb k "vert" then length (pverts p) else 0) + (if String.eqb k "face" then length (pfaces p) else 0))%nat).
  { intros k K. unfold ZTKCountKey. rewrite !map_app, !occs_app, vline_keys, fline_keys, !occs_const, (Z k K). lia. }
  rewrite (CK "vert"%string eq_refl), (CK "face"%string eq_refl), (CK "prism"%string eq_refl), (CK "pyramid"%string eq_refl).
  cbn [String.eqb Ascii.eqb Bool.eqb Nat.add Nat.ltb Nat.leb orb]. destruct NN as (e & r & NN). rewrite NN. rewrite <- NN. clear NN. unfold ZTKEvalKey.
  rewrite skip_front by (apply Forall_forall; exact F). rewrite Nat.add_0_r.
  pose proof (rt_verts (repeat face0 (length (pfaces p))) (pverts p) [] [] (map fline (pfaces p)) eq_refl) as V. cbn [app length] in V. rewrite V.
  pose proof (rt_faces (pverts p) (pfaces p) [] (repeat "vert"%string (length (pverts p)) ++ []) []) as G. cbn [app length] in G. rewrite (app_nil_r (map fline (pfaces p))) in G. rewrite G.
  - cbn [evalKeys rdmap zph]. destruct p; reflexivity.
  - rewrite app_nil_r, occs_const. reflexivity.
  - exact FN.
Qed.

(** ** A shape *)
Definition headKey (k : string) : bool := (String.eqb k "name" || String.eqb k "type" || String.eqb k "optic" || String.eqb k "texture")%string.
Lemma head_foreign b0 d0 d b : Forall (fun e => headKey (fst e) = true) d0 -> typestr b0 = typestr b -> storable b -> d = bodyFPrintZTK b -> bodyFromZTK b0 (d0 ++ d) = ROk b.
Proof.
  intros HF T ST ->.
  assert (FG : forall tbl : list string, (forall k, headKey k = true -> existsb (fun x => String.eqb x k) tbl = false) -> forall e, List.In e d0 -> existsb (fun x => String.eqb x (fst e)) tbl = false).
  { intros tbl K e I. apply K. rewrite Forall_forall in HF. apply HF. exact I. }
  assert (HK : forall k, headKey k = true -> k = "name"%string \/ k = "type"%string \/ k = "optic"%string \/ k = "texture"%string).
  { unfold headKey. intros k K. rewrite !Bool.orb_true_iff, !String.eqb_eq in K. tauto. }
  assert (FR : forall S (tbl : list (prp S)), known tbl "name" = false -> known tbl "type" = false -> known tbl "optic" = false -> known tbl "texture" = false -> foreign tbl d0).
  { intros S tbl A B C D. eapply Forall_impl; [|exact HF]. cbn. intros e K. destruct (HK _ K) as [-> | [-> | [-> | ->]]]; assumption. }
  destruct b, b0; try discriminate T; cbn [bodyFromZTK bodyFPrintZTK]; unfold ZTKEvalKey.
  - rewrite skip_front by (apply FR; reflexivity). rewrite rt_box by exact ST. reflexivity.
  - rewrite skip_front by (apply FR; reflexivity). rewrite rt_sphere by exact ST. reflexivity.
  - rewrite skip_front by (apply FR; reflexivity). rewrite rt_ellips by exact ST. reflexivity.
  - rewrite skip_front by (apply FR; reflexivity). rewrite rt_cyl by exact ST. reflexivity.
  - rewrite skip_front by (apply FR; reflexivity). rewrite rt_ecyl by exact ST. reflexivity.
  - rewrite skip_front by (apply FR; reflexivity). rewrite rt_cyl by exact ST. reflexivity.
  - rewrite skip_front by (apply FR; reflexivity). rewrite rt_cone by exact ST. reflexivity.
  - rewrite rt_ph; [reflexivity| |exact ST]. apply Forall_forall. apply FR; reflexivity.
Qed.
Lemma find_first l : forall i n, nth_error l i = Some n -> (forall j m, (j < i)%nat -> nth_error l j = Some m -> zName m <> zName n) -> findName l (zName n) = Some i.
Proof.
  induction l as [|x l IH]; intros i n E H; [destruct i; discriminate|]. cbn [findName]. destruct i as [|i].
  - injection E as ->. rewrite String.eqb_refl. reflexivity.
  - destruct (String.eqb_spec (zName x) (zName n)) as [K|K]; [exfalso; exact (H 0%nat x (Nat.lt_0_succ _) eq_refl K)|].
    cbn [nth_error] in E. rewrite (IH i n E); [reflexivity|]. intros j m L. apply (H (Datatypes.S j) m). lia.
Qed.
Lemma find_unused l w : unused l w -> findName l w = None.
Proof.
  intros H. induction l as [|x l IH]; [reflexivity|]. cbn. destruct (String.eqb_spec (zName x) w) as [E|E]; [exfalso; exact (H x (or_introl eq_refl) E)|].
  rewrite IH; [reflexivity|]. intros n I. apply H. right. exact I.
Qed.
Lemma query b : exists b0, zShape3DQueryAssign (typestr b) = ROk b0 /\ typestr b0 = typestr b.
Proof. destruct b; eexists; split; reflexivity. Qed.
Lemma body_foreign sarr on tn b : foreign (shapePrp sarr on tn) (bodyFPrintZTK b).
Proof.
  unfold foreign. destruct b; cbn [bodyFPrintZTK]; try (repeat constructor; fail).
  unfold zPH3DFPrintZTK. apply Forall_app. split.
  - apply Forall_forall. intros e I. apply in_map_iff in I. destruct I as (x & <- & _). reflexivity.
  - destruct (pverts p); [constructor|]. apply Forall_forall. intros e I. apply in_map_iff in I. destruct I as (x & <- & _). reflexivity.
Qed.
Definition found (names : list (option string)) (i : option nat) : Prop := match i with Some i => names_first names i | None => True end.
Lemma ztk_roundtrip sarr on tn w b io it :
  match sarr with Some l => unused (map hname l) w | None => True end -> found on io -> found tn it -> storable b ->
  exists d, zShape3DFPrintZTK (Some on) (Some tn) (SH (Some w) (Some b) io it) = Some d /\
    zShape3DFromZTK sarr (Some on) (Some tn) d = ROk (SH (Some w) (Some b) io it).
Proof.
  intros HU HO HT HS. unfold zShape3DFPrintZTK. cbn [hbody hname hoptic htex zName]. eexists. split; [reflexivity|].
  set (po := match refName (Some on) io with Some n => [("optic"%string, [TWord (zName n)])] | None => [] end).
  set (pt := match refName (Some tn) it with Some n => [("texture"%string, [TWord (zName n)])] | None => [] end).
  destruct (query b) as (b0 & Q & TS).
  assert (FS : findShape sarr w = None). { unfold findShape. destruct sarr as [l|]; [|reflexivity]. apply find_unused. exact HU. }
  assert (PO : po = [] /\ io = None \/ exists i n, io = Some i /\ po = [("optic"%string, [TWord (zName n)])] /\ findName on (zName n) = Some i).
  { unfold po. destruct io as [i|]; [|left; split; reflexivity]. right. destruct HO as (n & E & K). exists i, n. cbn [refName]. rewrite E. split; [reflexivity|]. split; [reflexivity|]. apply find_first; assumption. }
  assert (PT : pt = [] /\ it = None \/ exists i n, it = Some i /\ pt = [("texture"%string, [TWord (zName n)])] /\ findName tn (zName n) = Some i).
  { unfold pt. destruct it as [i|]; [|left; split; reflexivity]. right. destruct HT as (n & E & K). exists i, n. cbn [refName]. rewrite E. split; [reflexivity|]. split; [reflexivity|]. apply find_first; assumption. }
  set (hd := [("name"%string, [TWord w]); ("type"%string, [TWord (typestr b)])] ++ po ++ pt).
  assert (HD : Forall (fun e => headKey (fst e) = true) hd).
  { unfold hd. destruct PO as [(-> & _)|(? & ? & _ & -> & _)]; destruct PT as [(-> & _)|(? & ? & _ & -> & _)]; repeat constructor. }
  replace ([("name"%string, [TWord w]); ("type"%string, [TWord (typestr b)])] ++ po ++ pt ++ bodyFPrintZTK b) with (hd ++ bodyFPrintZTK b) by (unfold hd; rewrite <- !app_assoc; reflexivity).
  assert (EV : evalKeys (shapePrp sarr (Some on) (Some tn)) [] (ST zShape3DInit false ZFRAME3DIDENT false) (hd ++ bodyFPrintZTK b) = ROk (ST (SH (Some w) (Some b0) io it) false ZFRAME3DIDENT false)).
  { rewrite eval_app.
    replace (evalKeys (shapePrp sarr (Some on) (Some tn)) [] (ST zShape3DInit false ZFRAME3DIDENT false) hd) with (ROk (ST (SH (Some w) (Some b0) io it) false ZFRAME3DIDENT false)); [apply skip_all, body_foreign|].
    symmetry. unfold hd, shapePrp. cbn [app]. keys. unfold shName at 1. cbn [ZTKVal]. unfold onShape at 1. cbn [sshape]. rewrite FS. cbn [rdmap]. keys.
    unfold shType at 1. cbn [ZTKVal]. unfold onShape at 1. cbn [sshape simp sfrm sxf hname hbody hoptic htex zShape3DInit]. rewrite Q. cbn [rdmap].
    destruct PO as [(-> & ->)|(i & n & -> & -> & Fo)]; destruct PT as [(-> & ->)|(j & m & -> & -> & Ft)]; cbn [app]; keys; unfold shOptic, shTex; cbn [ZTKVal]; unfold onShape; cbn [sshape simp sfrm sxf hname hbody hoptic htex rdmap];
      rewrite ?Fo; keys; cbn [sshape simp sfrm sxf hname hbody hoptic htex rdmap ZTKVal]; rewrite ?Ft; reflexivity. }
  unfold zShape3DFromZTK, ZTKEvalKey. rewrite EV. cbn [simp sshape hbody]. rewrite (head_foreign b0 hd _ b HD TS HS eq_refl). reflexivity.
Qed.

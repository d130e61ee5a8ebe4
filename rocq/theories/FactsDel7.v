(** Inserting a point into a triangulation. *)
From Verif Require Import ModelDel SpecDel FactsElem FactsTri2 FactsCentre FactsDel FactsDel2 FactsDel3 FactsDel4 FactsDel5 FactsDel6.
From Coq Require Import List Lra Lia Bool.
Import ListNotations.
Open Scope R_scope.

(** ** the memory *)
Lemma dget_filter m tc x : dget (filter (fun c => negb (Nat.eqb (fst c) tc)) m) x = if Nat.eqb x tc then None else dget m x.
Proof.
  induction m as [|(s, X) r IH]; cbn [filter dget fst]; [destruct (Nat.eqb x tc); reflexivity|].
  destruct (Nat.eqb_spec s tc) as [->|N]; cbn [negb].
  - rewrite IH. destruct (Nat.eqb_spec x tc); [reflexivity|]. destruct (Nat.eqb_spec tc x); [congruence|reflexivity].
  - cbn [dget]. rewrite IH. destruct (Nat.eqb_spec s x), (Nat.eqb_spec x tc); try reflexivity. congruence.
Qed.
Lemma dget_app m m' x : dget (m ++ m') x = match dget m x with Some X => Some X | None => dget m' x end.
Proof. induction m as [|(s, X) r IH]; cbn [app dget]; [reflexivity|]. destruct (Nat.eqb s x); [reflexivity|exact IH]. Qed.
Definition fresh (m : mem) (new : nat) : Prop := forall x, List.In x (ids m) -> (x < new)%nat.
Lemma fresh_none m new x : fresh m new -> (new <= x)%nat -> dget m x = None.
Proof. intros F L. destruct (dget m x) as [X|] eqn:E; [|reflexivity]. assert (K : List.In x (ids m)) by (apply dget_ids; eauto). apply F in K. lia. Qed.
(** the part of zDelaunay2DUpdate which rewrites the memory *)
Definition subdivide (m : mem) (new tc : nat) (T : dtri) (p : nat) : option mem :=
  let m := filter (fun c => negb (Nat.eqb (fst c) tc)) m in
  let t1 := new in let t2 := (new + 1)%nat in let t3 := (new + 2)%nat in
  let blank := DT (fun _ => 0%nat) (fun _ => None) in
  let m := m ++ [(t1, blank); (t2, blank); (t3, blank)] in
  let m := dput m t1 (DT (of3 (dv T 0) (dv T 1) p) (of3 (dadj T 0) (Some t2) (Some t3))) in
  match zDelaunayTri2DBind m t1 0 (dadj T 0) with
  | None => None
  | Some m =>
  let m := dput m t2 (DT (of3 p (dv T 1) (dv T 2)) (of3 (Some t1) (dadj T 1) (Some t3))) in
  match zDelaunayTri2DBind m t2 1 (dadj T 1) with
  | None => None
  | Some m =>
  let m := dput m t3 (DT (of3 (dv T 0) p (dv T 2)) (of3 (Some t1) (Some t2) (dadj T 2))) in
  zDelaunayTri2DBind m t3 2 (dadj T 2)
  end end.
Ltac eqs := repeat match goal with |- context [Nat.eqb ?a ?b] => destruct (Nat.eqb_spec a b); try lia; try congruence end.
Lemma sub_ok m new tc T p : let t1 := new in let t2 := (new + 1)%nat in let t3 := (new + 2)%nat in
  dget m tc = Some T -> fresh m new ->
  (forall i b, (i < 3)%nat -> dadj T i = Some b -> b <> tc /\ exists B, dget m b = Some B /\ inj3 B) ->
  exists m' T1 T2 T3, subdivide m new tc T p = Some m' /\ ids m' = ids (filter (fun c => negb (Nat.eqb (fst c) tc)) m) ++ [t1; t2; t3] /\
    dget m' t1 = Some T1 /\ dget m' t2 = Some T2 /\ dget m' t3 = Some T3 /\
    dv T1 = of3 (dv T 0) (dv T 1) p /\ dv T2 = of3 p (dv T 1) (dv T 2) /\ dv T3 = of3 (dv T 0) p (dv T 2) /\
    (forall q, (q < 3)%nat -> dadj T1 q = of3 (dadj T 0) (Some t2) (Some t3) q) /\ (forall q, (q < 3)%nat -> dadj T2 q = of3 (Some t1) (dadj T 1) (Some t3) q) /\ (forall q, (q < 3)%nat -> dadj T3 q = of3 (Some t1) (Some t2) (dadj T 2) q) /\
    forall x, x <> t1 -> x <> t2 -> x <> t3 -> (x = tc \/ dget m x = None -> dget m' x = None) /\
      forall X, x <> tc -> dget m x = Some X -> exists X', dget m' x = Some X' /\ dv X' = dv X /\
        forall q, (q < 3)%nat -> dadj X' q = if isb (dadj T 2) x && Nat.eqb (dv X q) (dv T 0) then Some t3 else if isb (dadj T 1) x && Nat.eqb (dv X q) (dv T 2) then Some t2 else if isb (dadj T 0) x && Nat.eqb (dv X q) (dv T 1) then Some t1 else dadj X q.
Proof.
  intros t1 t2 t3 GT FR HB. unfold subdivide. cbv zeta. fold t2 t3 t1. set (bl := DT (fun _ => 0%nat) (fun _ => None)).
  set (ma := filter (fun c => negb (Nat.eqb (fst c) tc)) m ++ [(t1, bl); (t2, bl); (t3, bl)]).
  assert (LTC : (tc < new)%nat) by (apply FR, dget_ids; eauto).
  assert (OLD : forall b B, dget m b = Some B -> (b < new)%nat) by (intros b B G; apply FR, dget_ids; eauto).
  assert (NB : forall i b, (i < 3)%nat -> dadj T i = Some b -> (b < new)%nat) by (intros i b I E; destruct (HB i b I E) as (_ & B & G & _); eauto).
  assert (Ga : forall x, dget ma x = if Nat.eqb x tc then None else if (Nat.eqb x t1 || Nat.eqb x t2 || Nat.eqb x t3)%bool then Some bl else dget m x).
  { intros x. unfold ma. rewrite dget_app, dget_filter. destruct (Nat.eqb_spec x tc) as [->|N1]; [cbn [dget]; unfold t1, t2, t3; eqs; reflexivity|]. destruct (dget m x) as [X|] eqn:GX.
    - apply OLD in GX. unfold t1, t2, t3. eqs. reflexivity.
    - cbn [dget]. unfold t1, t2, t3. rewrite (Nat.eqb_sym x new), (Nat.eqb_sym x (new + 1)), (Nat.eqb_sym x (new + 2)). eqs; reflexivity. }
  set (Q1 := DT (of3 (dv T 0) (dv T 1) p) (of3 (dadj T 0) (Some t2) (Some t3))). set (mb := dput ma t1 Q1).
  assert (Gb : forall x, dget mb x = if Nat.eqb x t1 then Some Q1 else dget ma x). { intros x. apply (dget_dput _ _ _ _ bl). rewrite Ga. unfold t1. eqs. reflexivity. }
  assert (Gb1 : dget mb t1 = Some Q1) by (rewrite Gb, Nat.eqb_refl; reflexivity).
  assert (Gbx : forall x X, x <> tc -> dget m x = Some X -> dget mb x = Some X). { intros x X N G. pose proof (OLD _ _ G) as L. rewrite Gb, Ga. unfold t1, t2, t3. eqs. exact G. }
  destruct (bind_ok mb t1 0 Q1 (dadj T 0) Gb1 ltac:(lia)) as (m1 & B1 & D1 & G1 & R1).
  { intros b E. pose proof (NB 0%nat b ltac:(lia) E) as L. destruct (HB 0%nat b ltac:(lia) E) as (N & B & G & I). split; [unfold t1; lia|]. exists B. auto. }
  rewrite B1. change (dv Q1 (nx 0)) with (dv T 1) in R1. cbn [dv dadj Q1] in G1.
  assert (F1 : forall x, (new <= x)%nat -> isb (dadj T 0) x = false). { intros x L. destruct (isb (dadj T 0) x) eqn:E; [|reflexivity]. apply isb_true in E. apply (NB 0%nat) in E; lia. }
  assert (F2 : forall x, (new <= x)%nat -> isb (dadj T 1) x = false). { intros x L. destruct (isb (dadj T 1) x) eqn:E; [|reflexivity]. apply isb_true in E. apply (NB 1%nat) in E; lia. }
  assert (F3 : forall x, (new <= x)%nat -> isb (dadj T 2) x = false). { intros x L. destruct (isb (dadj T 2) x) eqn:E; [|reflexivity]. apply isb_true in E. apply (NB 2%nat) in E; lia. }
  set (Q2 := DT (of3 p (dv T 1) (dv T 2)) (of3 (Some t1) (dadj T 1) (Some t3))). set (mc := dput m1 t2 Q2).
  assert (G1b : exists Y, dget m1 t2 = Some Y). { destruct (R1 t2 ltac:(unfold t1, t2; lia)) as (_ & K). destruct (K bl) as (Y & GY & _); [rewrite Gb, Ga; unfold t1, t2; eqs; reflexivity|eauto]. }
  destruct G1b as (Y1 & G1b).
  assert (Gc : forall x, dget mc x = if Nat.eqb x t2 then Some Q2 else dget m1 x) by (intros x; apply (dget_dput _ _ _ _ Y1); exact G1b).
  assert (Gc2 : dget mc t2 = Some Q2) by (rewrite Gc, Nat.eqb_refl; reflexivity).
  assert (Gcx : forall x X, x <> tc -> dget m x = Some X -> exists X', dget mc x = Some X' /\ dv X' = dv X /\ forall q, (q < 3)%nat -> dadj X' q = if isb (dadj T 0) x && Nat.eqb (dv X q) (dv T 1) then Some t1 else dadj X q).
  { intros x X N G. pose proof (OLD _ _ G) as L. destruct (R1 x ltac:(unfold t1; lia)) as (_ & K). destruct (K X (Gbx x X N G)) as (X' & H1 & H2 & H3). exists X'. rewrite Gc. unfold t2. eqs. auto. }
  destruct (bind_ok mc t2 1 Q2 (dadj T 1) Gc2 ltac:(lia)) as (m2 & B2 & D2 & G2 & R2).
  { intros b E. pose proof (NB 1%nat b ltac:(lia) E) as L. destruct (HB 1%nat b ltac:(lia) E) as (N & B & G & I). split; [unfold t2; lia|]. destruct (Gcx b B N G) as (B' & H1 & H2 & _). exists B'. split; [exact H1|]. intros q r Hq Hr. rewrite H2. apply I; assumption. }
  rewrite B2. change (dv Q2 (nx 1)) with (dv T 2) in R2. cbn [dv dadj Q2] in G2.
  set (Q3 := DT (of3 (dv T 0) p (dv T 2)) (of3 (Some t1) (Some t2) (dadj T 2))). set (md := dput m2 t3 Q3).
  assert (G2b : exists Y, dget m2 t3 = Some Y).
  { destruct (R1 t3 ltac:(unfold t1, t3; lia)) as (_ & K). destruct (K bl) as (Y & GY & _); [rewrite Gb, Ga; unfold t1, t2, t3; eqs; reflexivity|].
    destruct (R2 t3 ltac:(unfold t2, t3; lia)) as (_ & K2). destruct (K2 Y) as (Z & GZ & _); [rewrite Gc; unfold t2, t3; eqs; exact GY|eauto]. }
  destruct G2b as (Y2 & G2b).
  assert (Gd : forall x, dget md x = if Nat.eqb x t3 then Some Q3 else dget m2 x) by (intros x; apply (dget_dput _ _ _ _ Y2); exact G2b).
  assert (Gd3 : dget md t3 = Some Q3) by (rewrite Gd, Nat.eqb_refl; reflexivity).
  assert (Gdx : forall x X, x <> tc -> dget m x = Some X -> exists X', dget md x = Some X' /\ dv X' = dv X /\ forall q, (q < 3)%nat -> dadj X' q = if isb (dadj T 1) x && Nat.eqb (dv X q) (dv T 2) then Some t2 else if isb (dadj T 0) x && Nat.eqb (dv X q) (dv T 1) then Some t1 else dadj X q).
  { intros x X N G. pose proof (OLD _ _ G) as L. destruct (Gcx x X N G) as (Y & H1 & H2 & H3). destruct (R2 x ltac:(unfold t2; lia)) as (_ & K). destruct (K Y H1) as (X' & K1 & K2 & K3). exists X'. rewrite Gd. split; [unfold t3; eqs; exact K1|]. split; [congruence|]. intros q Q. rewrite (K3 q Q), H2, (H3 q Q). reflexivity. }
  destruct (bind_ok md t3 2 Q3 (dadj T 2) Gd3 ltac:(lia)) as (m3 & B3 & D3 & G3 & R3).
  { intros b E. pose proof (NB 2%nat b ltac:(lia) E) as L. destruct (HB 2%nat b ltac:(lia) E) as (N & B & G & I). split; [unfold t3; lia|]. destruct (Gdx b B N G) as (B' & H1 & H2 & _). exists B'. split; [exact H1|]. intros q r Hq Hr. rewrite H2. apply I; assumption. }
  change (dv Q3 (nx 2)) with (dv T 0) in R3. cbn [dv dadj Q3] in G3.
  (* the first two new cells at the end *)
  destruct (R2 t1 ltac:(unfold t1, t2; lia)) as (_ & K12). destruct (K12 _ ltac:(rewrite Gc; unfold t1, t2; destruct (Nat.eqb_spec new (new + 1)); [lia|]; exact G1)) as (P12 & H12 & V12 & A12). cbn [dv dadj] in V12, A12.
  destruct (R3 t1 ltac:(unfold t1, t3; lia)) as (_ & K13). destruct (K13 P12 ltac:(rewrite Gd; unfold t1, t3; destruct (Nat.eqb_spec new (new + 2)); [lia|]; exact H12)) as (P13 & H13 & V13 & A13).
  destruct (R3 t2 ltac:(unfold t2, t3; lia)) as (_ & K23). destruct (K23 _ ltac:(rewrite Gd; unfold t2, t3; destruct (Nat.eqb_spec (new + 1) (new + 2)); [lia|]; exact G2)) as (P23 & H23 & V23 & A23). cbn [dv dadj] in V23, A23.
  exists m3, P13, P23. eexists. split; [exact B3|]. split; [|split; [exact H13|split; [exact H23|split; [exact G3|]]]].
  { rewrite D3. unfold md. rewrite ids_dput, D2. unfold mc. rewrite ids_dput, D1. unfold mb. rewrite ids_dput. unfold ma, ids. rewrite map_app. reflexivity. }
  split; [congruence|]. split; [exact V23|]. split; [reflexivity|]. split; [|split; [|split]].
  - intros q Q. rewrite (A13 q Q), (A12 q Q), F3, F2 by (unfold t1; lia). cbn [andb]. unfold setf. destruct q as [|q]; reflexivity.
  - intros q Q. rewrite (A23 q Q), F3 by (unfold t2; lia). cbn [andb]. unfold setf. destruct q as [|[|q]]; reflexivity.
  - intros q Q. cbn [dadj]. unfold setf. destruct q as [|[|[|q]]]; [reflexivity|reflexivity|reflexivity|lia].
  - intros x N1 N2 N3. split.
    + intros H. assert (Z0 : dget mb x = None). { rewrite Gb, Ga. destruct H as [->|H]; [unfold t1; eqs; reflexivity|]. destruct (Nat.eqb_spec x t1); [contradiction|]. destruct (Nat.eqb_spec x tc); [reflexivity|]. destruct (Nat.eqb_spec x t2); [contradiction|]. destruct (Nat.eqb_spec x t3); [contradiction|exact H]. }
      assert (Z1 : dget m1 x = None) by (apply (R1 x N1); exact Z0). assert (Z2 : dget m2 x = None) by (apply (R2 x N2); rewrite Gc; destruct (Nat.eqb_spec x t2); [contradiction|exact Z1]).
      apply (R3 x N3). rewrite Gd. destruct (Nat.eqb_spec x t3); [contradiction|exact Z2].
    + intros X N G. destruct (Gdx x X N G) as (Y & H1 & H2 & H3). destruct (R3 x N3) as (_ & K). destruct (K Y H1) as (X' & K1 & K2 & K3). exists X'. split; [exact K1|]. split; [congruence|]. intros q Q. rewrite (K3 q Q), H2, (H3 q Q). reflexivity.
Qed.
Lemma sub_darts m new tc T p : let t1 := new in let t2 := (new + 1)%nat in let t3 := (new + 2)%nat in let v0 := dv T 0 in let v1 := dv T 1 in let v2 := dv T 2 in
  dget m tc = Some T -> fresh m new ->
  (forall i b, (i < 3)%nat -> dadj T i = Some b -> b <> tc /\ exists B, dget m b = Some B /\ inj3 B) ->
  exists m' T1 T2 T3, subdivide m new tc T p = Some m' /\ ids m' = ids (filter (fun c => negb (Nat.eqb (fst c) tc)) m) ++ [t1; t2; t3] /\
    dget m' t1 = Some T1 /\ dget m' t2 = Some T2 /\ dget m' t3 = Some T3 /\ dv T1 2 = p /\ dv T2 0 = p /\ dv T3 1 = p /\ dadj T1 0 = dadj T 0 /\ dadj T2 1 = dadj T 1 /\ dadj T3 2 = dadj T 2 /\
    forall x f g h e, dart m' x f g h e <->
      (x = t1 /\ (f = v0 /\ g = v1 /\ h = p /\ e = dadj T 0 \/ f = v1 /\ g = p /\ h = v0 /\ e = Some t2 \/ f = p /\ g = v0 /\ h = v1 /\ e = Some t3)) \/
      (x = t2 /\ (f = p /\ g = v1 /\ h = v2 /\ e = Some t1 \/ f = v1 /\ g = v2 /\ h = p /\ e = dadj T 1 \/ f = v2 /\ g = p /\ h = v1 /\ e = Some t3)) \/
      (x = t3 /\ (f = v0 /\ g = p /\ h = v2 /\ e = Some t1 \/ f = p /\ g = v2 /\ h = v0 /\ e = Some t2 \/ f = v2 /\ g = v0 /\ h = p /\ e = dadj T 2)) \/
      ((x < new)%nat /\ x <> tc /\ exists e0, dart m x f g h e0 /\ e = if isb (dadj T 2) x && Nat.eqb f v0 then Some t3 else if isb (dadj T 1) x && Nat.eqb f v2 then Some t2 else if isb (dadj T 0) x && Nat.eqb f v1 then Some t1 else e0).
Proof.
  intros t1 t2 t3 v0 v1 v2 GT FR HB. destruct (sub_ok m new tc T p GT FR HB) as (m' & T1 & T2 & T3 & F & ID & G1 & G2 & G3 & V1 & V2 & V3 & A1 & A2 & A3 & O). fold t2 t3 t1 v0 v1 v2 in F, ID, G1, G2, G3, V1, V2, V3, A1, A2, A3, O.
  exists m', T1, T2, T3. do 5 (split; [assumption|]). rewrite V1, V2, V3, A1, A2, A3 by lia. do 6 (split; [reflexivity|]).
  assert (OLD : forall b B, dget m b = Some B -> (b < new)%nat) by (intros b B G; apply FR, dget_ids; eauto).
  intros x f g h e. split.
  - intros (X' & q & G & Q & F1 & F2 & F3 & F4). destruct (Nat.eq_dec x t1) as [->|N1]; [|destruct (Nat.eq_dec x t2) as [->|N2]; [|destruct (Nat.eq_dec x t3) as [->|N3]]].
    + left. split; [reflexivity|]. rewrite G1 in G. injection G as <-. rewrite V1 in F1, F2, F3. rewrite (A1 q Q) in F4. three q Q; cbv [nx nxx Nat.modulo Nat.divmod Nat.add snd fst Nat.sub of3] in F1, F2, F3, F4; [left|right; left|right; right]; repeat split; congruence.
    + right. left. split; [reflexivity|]. rewrite G2 in G. injection G as <-. rewrite V2 in F1, F2, F3. rewrite (A2 q Q) in F4. three q Q; cbv [nx nxx Nat.modulo Nat.divmod Nat.add snd fst Nat.sub of3] in F1, F2, F3, F4; [left|right; left|right; right]; repeat split; congruence.
    + right. right. left. split; [reflexivity|]. rewrite G3 in G. injection G as <-. rewrite V3 in F1, F2, F3. rewrite (A3 q Q) in F4. three q Q; cbv [nx nxx Nat.modulo Nat.divmod Nat.add snd fst Nat.sub of3] in F1, F2, F3, F4; [left|right; left|right; right]; repeat split; congruence.
    + right. right. right. destruct (O x N1 N2 N3) as (O1 & O2). destruct (Nat.eq_dec x tc) as [->|NC]; [rewrite O1 in G by auto; discriminate|]. destruct (dget m x) as [X|] eqn:GX; [|rewrite O1 in G by auto; discriminate].
      split; [eauto|]. split; [exact NC|]. destruct (O2 X NC eq_refl) as (X'' & Y & Z & W). rewrite Y in G. injection G as <-. exists (dadj X q). rewrite Z in F1, F2, F3. split; [exists X, q; auto 8|]. rewrite <- F4, <- F1. apply W, Q.
  - intros [(-> & H)|[(-> & H)|[(-> & H)|(LX & NC & e0 & (X & q & G & Q & F1 & F2 & F3 & F4) & E)]]].
    + destruct H as [(-> & -> & -> & ->)|[(-> & -> & -> & ->)|(-> & -> & -> & ->)]]; [exists T1, 0%nat|exists T1, 1%nat|exists T1, 2%nat]; rewrite V1, A1 by lia; repeat split; auto; lia.
    + destruct H as [(-> & -> & -> & ->)|[(-> & -> & -> & ->)|(-> & -> & -> & ->)]]; [exists T2, 0%nat|exists T2, 1%nat|exists T2, 2%nat]; rewrite V2, A2 by lia; repeat split; auto; lia.
    + destruct H as [(-> & -> & -> & ->)|[(-> & -> & -> & ->)|(-> & -> & -> & ->)]]; [exists T3, 0%nat|exists T3, 1%nat|exists T3, 2%nat]; rewrite V3, A3 by lia; repeat split; auto; lia.
    + destruct (O x) as (_ & O2); [unfold t1; lia|unfold t2; lia|unfold t3; lia|]. destruct (O2 X NC G) as (X' & Y & Z & W). exists X', q. rewrite Z. repeat split; auto. rewrite (W q Q), F1, F4. symmetry. exact E.
Qed.

(** ** the geometry *)
Lemma tri_cut a b c p x : inside_triangle a b c p -> inside_triangle a b c x -> area2 p a x <> 0 -> area2 p b x <> 0 -> area2 p c x <> 0 ->
  inside_triangle a b p x \/ inside_triangle p b c x \/ inside_triangle a p c x.
Proof.
  intros (P1 & P2 & P3) (X1 & X2 & X3) A B C.
  assert (E : area2 b c p * area2 p a x + area2 c a p * area2 p b x + area2 a b p * area2 p c x = 0) by (plane; ring).
  assert (E1 : area2 a p x = - area2 p a x) by (plane; ring). assert (E2 : area2 b p x = - area2 p b x) by (plane; ring). assert (E3 : area2 c p x = - area2 p c x) by (plane; ring).
  unfold inside_triangle. rewrite E1, E2, E3. set (al := area2 p a x) in *. set (be := area2 p b x) in *. set (ga := area2 p c x) in *.
  destruct (Rlt_le_dec al 0) as [L1|L1], (Rlt_le_dec be 0) as [L2|L2], (Rlt_le_dec ga 0) as [L3|L3].
  - exfalso. assert (0 < area2 b c p * - al) by (apply Rmult_lt_0_compat; lra). assert (0 < area2 c a p * - be) by (apply Rmult_lt_0_compat; lra). assert (0 < area2 a b p * - ga) by (apply Rmult_lt_0_compat; lra). lra.
  - right. right. lra.
  - right. left. lra.
  - right. right. lra.
  - left. lra.
  - left. lra.
  - right. left. lra.
  - exfalso. assert (0 < area2 b c p * al) by (apply Rmult_lt_0_compat; lra). assert (0 < area2 c a p * be) by (apply Rmult_lt_0_compat; lra). assert (0 < area2 a b p * ga) by (apply Rmult_lt_0_compat; lra). lra.
Qed.
Lemma tri_join1 a b c p x : inside_triangle a b c p -> inside_triangle a b p x -> inside_triangle a b c x.
Proof.
  intros (P1 & P2 & P3) X. pose proof (area_self1 b c). pose proof (area_self2 b c). pose proof (area_self1 c a). pose proof (area_self2 c a).
  assert (E1 : area2 b c a = area2 a b c) by (plane; ring). assert (E2 : area2 c a b = area2 a b c) by (plane; ring). pose proof (area_sum a b c p).
  split; [apply (area_pos_in a b p); [exact X|lra|lra|lra|left; lra]|]. split; [apply (area_pos_in a b p); [exact X|lra|lra|lra|right; left; lra]|]. apply X.
Qed.
Lemma tri_join2 a b c p x : inside_triangle a b c p -> inside_triangle p b c x -> inside_triangle a b c x.
Proof. intros P X. apply inside_rot, inside_rot. apply (tri_join1 _ _ _ p); [apply inside_rot, P|apply inside_rot, X]. Qed.
Lemma tri_join3 a b c p x : inside_triangle a b c p -> inside_triangle a p c x -> inside_triangle a b c x.
Proof. intros P X. apply inside_rot. apply (tri_join1 _ _ _ p); [apply inside_rot, inside_rot, P|apply inside_rot, inside_rot, X]. Qed.
Lemma tri_own a b c p q : inside_triangle a b c p -> area2 a b q < 0 \/ area2 b c q < 0 \/ area2 c a q < 0 -> area2 a b q < 0 \/ area2 b p q < 0 \/ area2 p a q < 0.
Proof.
  intros (P1 & P2 & P3) H. destruct (Rlt_le_dec (area2 a b q) 0) as [L1|L1]; [tauto|]. destruct (Rlt_le_dec (area2 b p q) 0) as [L2|L2]; [tauto|]. destruct (Rlt_le_dec (area2 p a q) 0) as [L3|L3]; [tauto|]. exfalso.
  pose proof (area_self1 b c). pose proof (area_self2 b c). pose proof (area_self1 c a). pose proof (area_self2 c a). assert (E1 : area2 b c a = area2 a b c) by (plane; ring). assert (E2 : area2 c a b = area2 a b c) by (plane; ring). pose proof (area_sum a b c p).
  assert (0 <= area2 b c q) by (apply (area_nonneg_in a b p); lra). assert (0 <= area2 c a q) by (apply (area_nonneg_in a b p); lra). lra.
Qed.

(** Inserting a point into a triangulation: the invariant. *)
From Verif Require Import ModelDel SpecDel FactsElem FactsTri2 FactsCentre FactsDel FactsDel2 FactsDel3 FactsDel4 FactsDel5 FactsDel6 FactsDel7.
From Coq Require Import List Lra Lia Bool.
Import ListNotations.
Open Scope R_scope.

Section Insert.
Variable pts : list vec2.
Notation pt := (dpt pts).
Notation ar := (ar pts). Notation ins := (ins pts). Notation mesh := (mesh pts). Notation off := (off pts).

Section Sub.
Variables (m : mem) (V : list nat) (new tc p : nat) (T : dtri).
Hypothesis M : mesh m V.
Hypothesis FR : fresh m new.
Hypothesis GT : dget m tc = Some T.
Let v0 := dv T 0. Let v1 := dv T 1. Let v2 := dv T 2.
Hypothesis INP : ins v0 v1 v2 (pt p).
Hypothesis OFF : off V (pt p).
Hypothesis NP : ~ List.In p V.

Lemma sub_d0 : dart m tc v0 v1 v2 (dadj T 0). Proof. exact (get_dart m tc T 0 GT ltac:(lia)). Qed.
Lemma sub_d1 : dart m tc v1 v2 v0 (dadj T 1). Proof. exact (get_dart m tc T 1 GT ltac:(lia)). Qed.
Lemma sub_d2 : dart m tc v2 v0 v1 (dadj T 2). Proof. exact (get_dart m tc T 2 GT ltac:(lia)). Qed.
Lemma sub_v : List.In v0 V /\ List.In v1 V /\ List.In v2 V.
Proof. split; [exact (M_in _ _ _ M _ _ _ _ _ sub_d0)|]. split; [exact (M_in _ _ _ M _ _ _ _ _ sub_d1)|exact (M_in _ _ _ M _ _ _ _ _ sub_d2)]. Qed.
Lemma sub_ne : v0 <> v1 /\ v0 <> v2 /\ v1 <> v2 /\ v0 <> p /\ v1 <> p /\ v2 <> p.
Proof. destruct (ar_ne _ _ _ _ (M_pos _ _ _ M _ _ _ _ _ sub_d0)) as (A & B & C). destruct sub_v as (X & Y & Z). repeat split; auto; intros E; apply NP; rewrite <- E; assumption. Qed.
Lemma sub_nb i b : (i < 3)%nat -> dadj T i = Some b -> b <> tc /\ exists B, dget m b = Some B /\ inj3 B.
Proof.
  intros I E. pose proof (get_dart m tc T i GT I) as D. rewrite E in D. split; [intros ->; exact (adj_self _ _ _ _ _ _ _ M D)|].
  destruct (M_adj _ _ _ M _ _ _ _ _ D) as (w & K). destruct (dart_get _ _ _ _ _ _ K) as (B & GB). exists B. split; [exact GB|exact (mesh_inj _ _ _ _ _ M GB)].
Qed.
Lemma sub_mesh : exists m' T1 T2 T3, subdivide m new tc T p = Some m' /\ ids m' = ids (filter (fun c => negb (Nat.eqb (fst c) tc)) m) ++ [new; (new + 1)%nat; (new + 2)%nat] /\
    dget m' new = Some T1 /\ dget m' (new + 1) = Some T2 /\ dget m' (new + 2) = Some T3 /\ dv T1 2 = p /\ dv T2 0 = p /\ dv T3 1 = p /\ dadj T1 0 = dadj T 0 /\ dadj T2 1 = dadj T 1 /\ dadj T3 2 = dadj T 2 /\
    mesh m' (p :: V) /\
    forall x f g h e, dart m' x f g h e ->
      (x = new /\ (f = v0 /\ g = v1 /\ h = p /\ e = dadj T 0 \/ f = v1 /\ g = p /\ h = v0 /\ e = Some (new + 1)%nat \/ f = p /\ g = v0 /\ h = v1 /\ e = Some (new + 2)%nat)) \/
      (x = (new + 1)%nat /\ (f = p /\ g = v1 /\ h = v2 /\ e = Some new \/ f = v1 /\ g = v2 /\ h = p /\ e = dadj T 1 \/ f = v2 /\ g = p /\ h = v1 /\ e = Some (new + 2)%nat)) \/
      (x = (new + 2)%nat /\ (f = v0 /\ g = p /\ h = v2 /\ e = Some new \/ f = p /\ g = v2 /\ h = v0 /\ e = Some (new + 1)%nat \/ f = v2 /\ g = v0 /\ h = p /\ e = dadj T 2)) \/
      ((x < new)%nat /\ x <> tc /\ exists e0, dart m x f g h e0).
Proof.
  destruct (sub_darts m new tc T p GT FR sub_nb) as (m' & T1 & T2 & T3 & F & ID & G1 & G2 & G3 & V1 & V2 & V3 & A1 & A2 & A3 & O). fold v0 v1 v2 in O.
  exists m', T1, T2, T3. do 11 (split; [assumption|]). set (t2 := (new + 1)%nat) in *. set (t3 := (new + 2)%nat) in *. assert (Et2 : t2 = (new + 1)%nat) by reflexivity. assert (Et3 : t3 = (new + 2)%nat) by reflexivity. clearbody t2 t3.
  pose proof sub_d0 as D0. pose proof sub_d1 as D1. pose proof sub_d2 as D2. destruct sub_v as (I0 & I1 & I2). destruct sub_ne as (N01 & N02 & N12 & N0p & N1p & N2p).
  assert (LT : forall x f g h e, dart m x f g h e -> (x < new)%nat) by (intros x f g h e D; destruct (dart_get _ _ _ _ _ _ D) as (X & GX); apply FR, dget_ids; eauto).
  pose proof (LT _ _ _ _ _ D0) as LTC.
  split.
  2:{ intros x f g h e D. apply O in D. destruct D as [D|[D|[D|(L & N & e0 & D & _)]]]; [tauto|tauto|tauto|]. right. right. right. eauto. }
  assert (P0 : 0 < ar v0 v1 p) by apply INP. assert (P1 : 0 < ar v1 v2 p) by apply INP. assert (P2 : 0 < ar v2 v0 p) by apply INP.
  assert (R1 : ar v1 p v0 = ar v0 v1 p) by (unfold FactsDel4.ar; plane; ring). assert (R2 : ar p v0 v1 = ar v0 v1 p) by (unfold FactsDel4.ar; plane; ring).
  assert (R3 : ar p v1 v2 = ar v1 v2 p) by (unfold FactsDel4.ar; plane; ring). assert (R4 : ar v2 p v1 = ar v1 v2 p) by (unfold FactsDel4.ar; plane; ring).
  assert (R5 : ar v0 p v2 = ar v2 v0 p) by (unfold FactsDel4.ar; plane; ring). assert (R6 : ar p v2 v0 = ar v2 v0 p) by (unfold FactsDel4.ar; plane; ring).
  assert (OV : forall x, off (p :: V) x -> off V x) by (intros x H i j I J; apply H; right; assumption).
  assert (W1 : exists e, dart m' new v0 v1 p e) by (eexists; apply O; left; split; [reflexivity|]; left; repeat split; reflexivity).
  assert (W2 : exists e, dart m' t2 p v1 v2 e) by (eexists; apply O; right; left; split; [reflexivity|]; left; repeat split; reflexivity).
  assert (W3 : exists e, dart m' t3 v0 p v2 e) by (eexists; apply O; right; right; left; split; [reflexivity|]; left; repeat split; reflexivity).
  constructor.
  - rewrite ID. assert (K : NoDup (ids (filter (fun c => negb (Nat.eqb (fst c) tc)) m)) /\ forall x, List.In x (ids (filter (fun c => negb (Nat.eqb (fst c) tc)) m)) -> (x < new)%nat).
    { split.
      - pose proof (M_ids _ _ _ M) as ND. clear - ND. induction m as [|(s, X) r IH]; cbn [filter ids map fst] in *; [constructor|]. inversion ND as [|? ? N1 N2]; subst. specialize (IH N2).
        destruct (negb (Nat.eqb s tc)); [|exact IH]. cbn [map fst]. constructor; [|exact IH]. intros H. apply N1. apply in_map_iff in H. destruct H as (y & E & Y). apply filter_In in Y. apply in_map_iff. exists y. tauto.
      - intros x X. apply FR. apply in_map_iff in X. destruct X as (y & E & Y). apply filter_In in Y. apply in_map_iff. exists y. tauto. }
    destruct K as (K1 & K2). clear - K1 K2 Et2 Et3. induction (ids (filter (fun c => negb (Nat.eqb (fst c) tc)) m)) as [|y r IH].
    + cbn [app]. rewrite Et2, Et3. repeat constructor; cbn [List.In]; lia.
    + cbn [app]. inversion K1 as [|? ? N1 N2]; subst. constructor.
      * intros H. apply in_app_iff in H. destruct H as [H|H]; [contradiction|]. specialize (K2 y (or_introl eq_refl)). cbn [List.In] in H. lia.
      * apply IH; [exact N2|]. intros x X. apply K2. right. exact X.
  - intros x f g h e D. apply O in D. destruct D as [(_ & [(-> & -> & -> & _)|[(-> & -> & -> & _)|(-> & -> & -> & _)]])|[(_ & [(-> & -> & -> & _)|[(-> & -> & -> & _)|(-> & -> & -> & _)]])|[(_ & [(-> & -> & -> & _)|[(-> & -> & -> & _)|(-> & -> & -> & _)]])|(_ & _ & e0 & D & _)]]]; try lra. exact (M_pos _ _ _ M _ _ _ _ _ D).
  - intros x f g h e D. apply O in D. cbn [List.In]. destruct D as [(_ & [(-> & -> & -> & _)|[(-> & -> & -> & _)|(-> & -> & -> & _)]])|[(_ & [(-> & -> & -> & _)|[(-> & -> & -> & _)|(-> & -> & -> & _)]])|[(_ & [(-> & -> & -> & _)|[(-> & -> & -> & _)|(-> & -> & -> & _)]])|(_ & _ & e0 & D & _)]]]; try tauto. right. exact (M_in _ _ _ M _ _ _ _ _ D).
  - assert (OUT : forall i j k s x, dart m tc i j k s -> s = Some x -> i <> j -> exists h', dart m x j i h' (Some tc) /\ x <> tc /\ (x < new)%nat).
    { intros i j k s x D -> N. destruct (M_adj _ _ _ M _ _ _ _ _ D) as (h' & K). exists h'. split; [exact K|]. split; [intros ->; exact (adj_self _ _ _ _ _ _ _ M D)|exact (LT _ _ _ _ _ K)]. }
    intros x f g h b D. apply O in D. destruct D as [(-> & [(-> & -> & -> & E)|[(-> & -> & -> & E)|(-> & -> & -> & E)]])|[(-> & [(-> & -> & -> & E)|[(-> & -> & -> & E)|(-> & -> & -> & E)]])|[(-> & [(-> & -> & -> & E)|[(-> & -> & -> & E)|(-> & -> & -> & E)]])|(LX & NX & e0 & D & E)]]].
    + destruct (OUT _ _ _ _ b D0 (eq_sym E) N01) as (h' & K & NB & LB). exists h'. apply O. right. right. right. split; [exact LB|]. split; [exact NB|]. exists (Some tc). split; [exact K|].
      destruct (Nat.eqb_spec v1 v0); [congruence|]. destruct (Nat.eqb_spec v1 v2); [congruence|]. rewrite !andb_false_r, <- E. cbn [isb]. rewrite !Nat.eqb_refl. reflexivity.
    + injection E as ->. exists v2. apply O. right. left. split; [reflexivity|]. left. auto.
    + injection E as ->. exists v2. apply O. right. right. left. split; [reflexivity|]. left. auto.
    + injection E as ->. exists v0. apply O. left. split; [reflexivity|]. right. left. auto.
    + destruct (OUT _ _ _ _ b D1 (eq_sym E) N12) as (h' & K & NB & LB). exists h'. apply O. right. right. right. split; [exact LB|]. split; [exact NB|]. exists (Some tc). split; [exact K|].
      destruct (Nat.eqb_spec v2 v0); [congruence|]. rewrite !andb_false_r, <- E. cbn [isb]. rewrite !Nat.eqb_refl. reflexivity.
    + injection E as ->. exists v0. apply O. right. right. left. split; [reflexivity|]. right. left. auto.
    + injection E as ->. exists v1. apply O. left. split; [reflexivity|]. right. right. auto.
    + injection E as ->. exists v1. apply O. right. left. split; [reflexivity|]. right. right. auto.
    + destruct (OUT _ _ _ _ b D2 (eq_sym E) (not_eq_sym N02)) as (h' & K & NB & LB). exists h'. apply O. right. right. right. split; [exact LB|]. split; [exact NB|]. exists (Some tc). split; [exact K|].
      rewrite <- E. cbn [isb]. rewrite !Nat.eqb_refl. reflexivity.
    + destruct (isb (dadj T 2) x && Nat.eqb f v0) eqn:B2; [|destruct (isb (dadj T 1) x && Nat.eqb f v2) eqn:B1; [|destruct (isb (dadj T 0) x && Nat.eqb f v1) eqn:B0]].
      * injection E as ->. apply andb_true_iff in B2. destruct B2 as (B2 & B3). apply isb_true in B2. apply Nat.eqb_eq in B3. subst f. destruct (OUT _ _ _ _ x D2 B2 (not_eq_sym N02)) as (h' & K & _). destruct (mesh_fun _ _ _ _ _ _ _ _ _ _ _ M K D) as (-> & _).
        exists p. apply O. right. right. left. split; [reflexivity|]. right. right. auto.
      * injection E as ->. apply andb_true_iff in B1. destruct B1 as (B1 & B3). apply isb_true in B1. apply Nat.eqb_eq in B3. subst f. destruct (OUT _ _ _ _ x D1 B1 N12) as (h' & K & _). destruct (mesh_fun _ _ _ _ _ _ _ _ _ _ _ M K D) as (-> & _).
        exists p. apply O. right. left. split; [reflexivity|]. right. left. auto.
      * injection E as ->. apply andb_true_iff in B0. destruct B0 as (B0 & B3). apply isb_true in B0. apply Nat.eqb_eq in B3. subst f. destruct (OUT _ _ _ _ x D0 B0 N01) as (h' & K & _). destruct (mesh_fun _ _ _ _ _ _ _ _ _ _ _ M K D) as (-> & _).
        exists p. apply O. left. split; [reflexivity|]. left. auto.
      * subst e0. destruct (M_adj _ _ _ M _ _ _ _ _ D) as (h' & K). exists h'. destruct (Nat.eq_dec b tc) as [->|NB].
        -- exfalso. destruct (dart_only _ _ _ _ _ _ _ _ _ _ D0 K) as [(-> & -> & ->)|[(-> & -> & ->)|(-> & -> & ->)]].
           ++ destruct (mesh_fun _ _ _ _ _ _ _ _ _ _ _ M D0 K) as (_ & _ & E). rewrite <- E in B0. cbn [isb] in B0. rewrite !Nat.eqb_refl in B0. discriminate.
           ++ destruct (mesh_fun _ _ _ _ _ _ _ _ _ _ _ M D1 K) as (_ & _ & E). rewrite <- E in B1. cbn [isb] in B1. rewrite !Nat.eqb_refl in B1. discriminate.
           ++ destruct (mesh_fun _ _ _ _ _ _ _ _ _ _ _ M D2 K) as (_ & _ & E). rewrite <- E in B2. cbn [isb] in B2. rewrite !Nat.eqb_refl in B2. discriminate.
        -- apply O. right. right. right. split; [exact (LT _ _ _ _ _ K)|]. split; [exact NB|]. exists (Some x). split; [exact K|].
           assert (NO : forall i j k s, dart m tc i j k s -> i <> j -> isb s b && Nat.eqb g j = false).
           { intros i j k s Ds Nij. destruct (isb s b) eqn:ES; [|reflexivity]. apply isb_true in ES. destruct (Nat.eqb_spec g j) as [->|]; [|reflexivity]. exfalso. destruct (OUT _ _ _ _ b Ds ES Nij) as (h2 & K2 & _). destruct (mesh_fun _ _ _ _ _ _ _ _ _ _ _ M K2 K) as (_ & _ & E). congruence. }
           rewrite (NO _ _ _ _ D2 (not_eq_sym N02)), (NO _ _ _ _ D1 N12), (NO _ _ _ _ D0 N01). reflexivity.
  - intros x f g h D. apply O in D. destruct D as [(-> & [(-> & -> & -> & E)|[(-> & -> & -> & E)|(-> & -> & -> & E)]])|[(-> & [(-> & -> & -> & E)|[(-> & -> & -> & E)|(-> & -> & -> & E)]])|[(-> & [(-> & -> & -> & E)|[(-> & -> & -> & E)|(-> & -> & -> & E)]])|(LX & NX & e0 & D & E)]]]; try discriminate.
    + rewrite <- E in D0. exact (M_rim _ _ _ M _ _ _ _ D0).
    + rewrite <- E in D1. exact (M_rim _ _ _ M _ _ _ _ D1).
    + rewrite <- E in D2. exact (M_rim _ _ _ M _ _ _ _ D2).
    + destruct (isb (dadj T 2) x && Nat.eqb f v0); [discriminate|]. destruct (isb (dadj T 1) x && Nat.eqb f v2); [discriminate|]. destruct (isb (dadj T 0) x && Nat.eqb f v1); [discriminate|]. subst e0. exact (M_rim _ _ _ M _ _ _ _ D).
  - assert (OWN : forall q, List.In q (p :: V) -> (q = v0 \/ q = v1 \/ q = p \/ ar v0 v1 q < 0 \/ ar v1 p q < 0 \/ ar p v0 q < 0) /\ (q = v1 \/ q = v2 \/ q = p \/ ar v1 v2 q < 0 \/ ar v2 p q < 0 \/ ar p v1 q < 0) /\ (q = v2 \/ q = v0 \/ q = p \/ ar v2 v0 q < 0 \/ ar v0 p q < 0 \/ ar p v2 q < 0)).
    { intros q [<-|Q]; [tauto|]. pose proof (M_own _ _ _ M _ _ _ _ _ _ Q D0) as H. pose proof (ar_swap pts p v0 v1). pose proof (ar_swap pts p v1 v2). pose proof (ar_swap pts p v2 v0).
      assert (S1 : ar v1 p v2 < 0) by (rewrite ar_swap; lra). assert (S2 : ar v2 p v0 < 0) by (rewrite ar_swap; lra). assert (S3 : ar v0 p v1 < 0) by (rewrite ar_swap; lra).
      destruct (Nat.eq_dec q v0) as [->|M0]; [tauto|]. destruct (Nat.eq_dec q v1) as [->|M1]; [tauto|]. destruct (Nat.eq_dec q v2) as [->|M2]; [tauto|].
      assert (K : ar v0 v1 q < 0 \/ ar v1 v2 q < 0 \/ ar v2 v0 q < 0) by tauto.
      pose proof (tri_own _ _ _ _ (pt q) INP K) as K0. pose proof (tri_own _ _ _ _ (pt q) (inside_rot _ _ _ _ INP) ltac:(fold (ar v0 v1 q) (ar v1 v2 q) (ar v2 v0 q); tauto)) as K1. pose proof (tri_own _ _ _ _ (pt q) (inside_rot _ _ _ _ (inside_rot _ _ _ _ INP)) ltac:(fold (ar v0 v1 q) (ar v1 v2 q) (ar v2 v0 q); tauto)) as K2.
      unfold FactsDel4.ar. tauto. }
    intros q x f g h e Q D. pose proof (OWN q Q) as (K0 & K1 & K2). apply O in D. destruct D as [(-> & [(-> & -> & -> & E)|[(-> & -> & -> & E)|(-> & -> & -> & E)]])|[(-> & [(-> & -> & -> & E)|[(-> & -> & -> & E)|(-> & -> & -> & E)]])|[(-> & [(-> & -> & -> & E)|[(-> & -> & -> & E)|(-> & -> & -> & E)]])|(LX & NX & e0 & D & E)]]]; try tauto.
    destruct Q as [<-|Q]; [|exact (M_own _ _ _ M _ _ _ _ _ _ Q D)]. right. right. right.
    destruct (dart_rot _ _ _ _ _ _ D) as (n1 & E1). destruct (dart_rot _ _ _ _ _ _ E1) as (n2 & E2). destruct (ar_ne _ _ _ _ (M_pos _ _ _ M _ _ _ _ _ D)) as (Nfg & Nfh & Ngh).
    pose proof (M_in _ _ _ M _ _ _ _ _ D) as If. pose proof (M_in _ _ _ M _ _ _ _ _ E1) as Ig. pose proof (M_in _ _ _ M _ _ _ _ _ E2) as Ih.
    assert (Z1 : ar f g p <> 0) by (apply OFF; assumption). assert (Z2 : ar g h p <> 0) by (apply OFF; assumption). assert (Z3 : ar h f p <> 0) by (apply OFF; auto).
    destruct (Rlt_le_dec (ar f g p) 0) as [L1|L1]; [tauto|]. destruct (Rlt_le_dec (ar g h p) 0) as [L2|L2]; [tauto|]. destruct (Rlt_le_dec (ar h f p) 0) as [L3|L3]; [tauto|]. exfalso. apply NX.
    apply (M_one _ _ _ M (pt p) _ _ _ _ _ _ _ _ _ _ OFF D) with (2 := D0); [|exact INP]. unfold FactsDel4.ins, inside_triangle. fold (ar f g p) (ar g h p) (ar h f p). lra.
  - intros x OX IX. destruct (M_cov _ _ _ M x (OV x OX) IX) as (t & f & g & h & e & D & IN). destruct (Nat.eq_dec t tc) as [->|NT].
    + assert (IN' : ins v0 v1 v2 x). { destruct (dart_only _ _ _ _ _ _ _ _ _ _ D0 D) as [(-> & -> & ->)|[(-> & -> & ->)|(-> & -> & ->)]]; [exact IN|exact (inside_rot _ _ _ _ (inside_rot _ _ _ _ IN))|exact (inside_rot _ _ _ _ IN)]. }
      assert (Y : forall v, List.In v V -> v <> p -> area2 (pt p) (pt v) x <> 0) by (intros v Iv Nv; apply OX; [left; reflexivity|right; exact Iv|auto]).
      destruct (tri_cut _ _ _ _ x INP IN' (Y _ I0 N0p) (Y _ I1 N1p) (Y _ I2 N2p)) as [K|[K|K]].
      * destruct W1 as (e1 & W1). exists new, v0, v1, p, e1. split; [exact W1|exact K].
      * destruct W2 as (e1 & W2). exists t2, p, v1, v2, e1. split; [exact W2|exact K].
      * destruct W3 as (e1 & W3). exists t3, v0, p, v2, e1. split; [exact W3|exact K].
    + exists t, f, g, h. eexists. split; [|exact IN]. apply O. right. right. right. split; [exact (LT _ _ _ _ _ D)|]. split; [exact NT|]. eexists. split; [exact D|reflexivity].
  - intros x t f g h e t' f' g' h' e' OX D IN D' IN'.
    assert (CASE : forall t f g h e, dart m' t f g h e -> ins f g h x -> (t = new /\ ins v0 v1 p x) \/ (t = t2 /\ ins p v1 v2 x) \/ (t = t3 /\ ins v0 p v2 x) \/ ((t < new)%nat /\ t <> tc /\ exists e0, dart m t f g h e0)).
    { clear - O. intros t f g h e D IN. assert (IN1 := inside_rot _ _ _ _ IN). assert (IN2 := inside_rot _ _ _ _ IN1). apply O in D.
      destruct D as [(-> & [(-> & -> & -> & E)|[(-> & -> & -> & E)|(-> & -> & -> & E)]])|[(-> & [(-> & -> & -> & E)|[(-> & -> & -> & E)|(-> & -> & -> & E)]])|[(-> & [(-> & -> & -> & E)|[(-> & -> & -> & E)|(-> & -> & -> & E)]])|(LX & NX & e0 & D & E)]]]; try (left; split; [reflexivity|assumption]); try (right; left; split; [reflexivity|assumption]); try (right; right; left; split; [reflexivity|assumption]). right. right. right. eauto. }
    destruct (CASE _ _ _ _ _ D IN) as [C|[C|[C|C]]], (CASE _ _ _ _ _ D' IN') as [C'|[C'|[C'|C']]].
    all: try (destruct C as (-> & _), C' as (-> & _); reflexivity).
    all: assert (OLD : forall t f g h, t <> tc -> (exists e0, dart m t f g h e0) -> ins f g h x -> ~ ins v0 v1 v2 x) by (intros s i j k NS (e0 & DS) IS IC; apply NS; exact (M_one _ _ _ M x _ _ _ _ _ _ _ _ _ _ (OV x OX) DS IS D0 IC)).
    all: assert (J1 : ins v0 v1 p x -> ins v0 v1 v2 x) by exact (tri_join1 _ _ _ _ _ INP); assert (J2 : ins p v1 v2 x -> ins v0 v1 v2 x) by exact (tri_join2 _ _ _ _ _ INP); assert (J3 : ins v0 p v2 x -> ins v0 v1 v2 x) by exact (tri_join3 _ _ _ _ _ INP).
    all: pose proof (area_swap (pt p) (pt v0) x) as SW0; pose proof (area_swap (pt p) (pt v1) x) as SW1; pose proof (area_swap (pt p) (pt v2) x) as SW2.
    all: try (exfalso; destruct C as (_ & A & B & C), C' as (_ & A' & B' & C'); lra).
    + exfalso. destruct C' as (L & N & X). exact (OLD _ _ _ _ N X IN' (J1 (proj2 C))).
    + exfalso. destruct C' as (L & N & X). exact (OLD _ _ _ _ N X IN' (J2 (proj2 C))).
    + exfalso. destruct C' as (L & N & X). exact (OLD _ _ _ _ N X IN' (J3 (proj2 C))).
    + exfalso. destruct C as (L & N & X). exact (OLD _ _ _ _ N X IN (J1 (proj2 C'))).
    + exfalso. destruct C as (L & N & X). exact (OLD _ _ _ _ N X IN (J2 (proj2 C'))).
    + exfalso. destruct C as (L & N & X). exact (OLD _ _ _ _ N X IN (J3 (proj2 C'))).
    + destruct C as (_ & _ & e0 & DC), C' as (_ & _ & e0' & DC'). exact (M_one _ _ _ M x _ _ _ _ _ _ _ _ _ _ (OV x OX) DC IN DC' IN').
Qed.
Hypothesis EC : empty_circles pts m V.
Lemma sub_wit v : List.In v V -> powi pts v0 v1 v2 v = 0 -> wit pts (p :: V) p v.
Proof.
  intros Iv Zv. assert (PP : powi pts v0 v1 v2 p < 0) by (apply pow_in_strict; exact INP).
  destruct (shrink (cc (pt v0) (pt v1) (pt v2)) (sq (pt v0) (cc (pt v0) (pt v1) (pt v2))) (pt v) (pt p)) as (o & k & K1 & K2 & K3).
  - exact Zv.
  - apply Rlt_le. exact PP.
  - intros E. unfold powi in Zv, PP. rewrite E in PP. lra.
  - exists o, k. split; [exact K2|]. split; [exact K1|]. intros q [<-|Q]; [lra|]. apply K3. exact (EC _ _ _ _ _ q sub_d0 Q).
Qed.
Lemma sub_legalizing : exists m' ps, subdivide m new tc T p = Some m' /\ ids m' = ids (filter (fun c => negb (Nat.eqb (fst c) tc)) m) ++ [new; (new + 1)%nat; (new + 2)%nat] /\
  match zDelaunayPair2DStackPush m' [] new 0 with Some ps => match zDelaunayPair2DStackPush m' ps (new + 1) 1 with Some ps => zDelaunayPair2DStackPush m' ps (new + 2) 2 | None => None end | None => None end = Some ps /\
  (length ps <= 3)%nat /\ legalizing pts (p :: V) p m' ps.
Proof.
  destruct sub_mesh as (m' & T1 & T2 & T3 & F & ID & G1 & G2 & G3 & V1 & V2 & V3 & A1 & A2 & A3 & M' & O).
  set (ps1 := match dadj T 0 with None => [] | Some _ => [(new, 0%nat)] end). set (ps2 := match dadj T 1 with None => ps1 | Some _ => ((new + 1)%nat, 1%nat) :: ps1 end). set (ps3 := match dadj T 2 with None => ps2 | Some _ => ((new + 2)%nat, 2%nat) :: ps2 end).
  exists m', ps3. split; [exact F|]. split; [exact ID|]. split; [unfold zDelaunayPair2DStackPush; rewrite G1, A1, G2, A2, G3, A3; reflexivity|].
  split; [unfold ps3, ps2, ps1; destruct (dadj T 0), (dadj T 1), (dadj T 2); cbn [length]; lia|].
  assert (PS : forall x, List.In x ps3 -> x = (new, 0%nat) \/ x = ((new + 1)%nat, 1%nat) \/ x = ((new + 2)%nat, 2%nat)).
  { intros x. unfold ps3, ps2, ps1. destruct (dadj T 0), (dadj T 1), (dadj T 2); cbn [List.In]; intuition. }
  destruct sub_v as (I0 & I1 & I2). destruct sub_ne as (N01 & N02 & N12 & N0p & N1p & N2p). pose proof (M_pos _ _ _ M _ _ _ _ _ sub_d0) as P.
  assert (OLDV : forall x f g h e, dart m x f g h e -> f <> p /\ g <> p /\ h <> p).
  { intros x f g h e D. destruct (dart_rot _ _ _ _ _ _ D) as (n1 & E1). destruct (dart_rot _ _ _ _ _ _ E1) as (n2 & E2). pose proof (M_in _ _ _ M _ _ _ _ _ D). pose proof (M_in _ _ _ M _ _ _ _ _ E1). pose proof (M_in _ _ _ M _ _ _ _ _ E2). repeat split; intros ->; contradiction. }
  assert (W : wit pts (p :: V) p v0 /\ wit pts (p :: V) p v1 /\ wit pts (p :: V) p v2).
  { split; [apply sub_wit; [exact I0|apply pow_a]|]. split; [apply sub_wit; [exact I1|apply pow_b; fold (ar v0 v1 v2); lra]|apply sub_wit; [exact I2|apply pow_c; fold (ar v0 v1 v2); lra]]. }
  constructor.
  - exact M'.
  - intros x f g h e q D N1 N2 N3 Q NQ. destruct Q as [Q|Q]; [congruence|]. apply O in D. destruct D as [(_ & [(-> & -> & -> & _)|[(-> & -> & -> & _)|(-> & -> & -> & _)]])|[(_ & [(-> & -> & -> & _)|[(-> & -> & -> & _)|(-> & -> & -> & _)]])|[(_ & [(-> & -> & -> & _)|[(-> & -> & -> & _)|(-> & -> & -> & _)]])|(_ & _ & e0 & D)]]]; try congruence. exact (EC _ _ _ _ _ _ D Q).
  - intros x g h e D. apply O in D. destruct D as [(_ & [(E & -> & -> & _)|[(E & -> & -> & _)|(E & -> & -> & _)]])|[(_ & [(E & -> & -> & _)|[(E & -> & -> & _)|(E & -> & -> & _)]])|[(_ & [(E & -> & -> & _)|[(E & -> & -> & _)|(E & -> & -> & _)]])|(_ & _ & e0 & D)]]]; try congruence; try tauto. apply OLDV in D. tauto.
  - intros x f g b w' e D _. left. apply O in D. destruct D as [(-> & [(-> & -> & _ & E)|[(-> & -> & E & _)|(-> & -> & E & _)]])|[(-> & [(-> & -> & E & _)|[(-> & -> & _ & E)|(-> & -> & E & _)]])|[(-> & [(-> & -> & E & _)|[(-> & -> & E & _)|(-> & -> & _ & E)]])|(_ & _ & e0 & D)]]]; try congruence.
    + exists 0%nat. unfold ps3, ps2, ps1. rewrite <- E. destruct (dadj T 1), (dadj T 2); cbn [List.In]; tauto.
    + exists 1%nat. unfold ps3, ps2. rewrite <- E. destruct (dadj T 2); cbn [List.In]; tauto.
    + exists 2%nat. unfold ps3. rewrite <- E. cbn [List.In]; tauto.
    + apply OLDV in D. tauto.
  - intros x j J. destruct (PS _ J) as [E|[E|E]]; injection E as -> ->; (split; [lia|]); [exists T1|exists T2|exists T3]; split; assumption.
Qed.
End Sub.

(** ** finding the triangle *)
Definition apart (V : list nat) (p : nat) : Prop := forall i j, List.In i V -> List.In j V -> i <> j -> zTOL * dist2 (pt i) (pt j) < Rabs (ar i j p).
Lemma apart_off V p : apart V p -> off V (pt p).
Proof.
  intros H i j I J N E. specialize (H i j I J N). unfold FactsDel4.ar in H. rewrite E, Rabs_R0 in H. pose proof (dist2_pos (pt i) (pt j)) as D. pose proof zTOL_pos as Z. assert (0 <= zTOL * dist2 (pt i) (pt j)) by (apply Rmult_le_pos; lra). lra.
Qed.
Lemma in_tri_area a b c x f g : in_triangle2 a b c x -> 0 <= area2 f g a -> 0 <= area2 f g b -> 0 <= area2 f g c -> 0 <= area2 f g x.
Proof.
  intros (s & t & u & (A & B & C & E) & ->) X Y Z.
  assert (K : area2 f g (comb3_2 s t u a b c) = s * area2 f g a + t * area2 f g b + u * area2 f g c + (1 - s - t - u) * (cross2 f g)). { unfold comb3_2. plane. ring. }
  rewrite K. replace (1 - s - t - u) with 0 by lra. assert (0 <= s * area2 f g a) by (apply Rmult_le_pos; lra). assert (0 <= t * area2 f g b) by (apply Rmult_le_pos; lra). assert (0 <= u * area2 f g c) by (apply Rmult_le_pos; lra). lra.
Qed.
Lemma area_gap f g p x : area2 f g x - area2 f g p <= dist2 f g * dist2 p x.
Proof.
  set (y := area2 f g x - area2 f g p). set (d := dist2 f g * dist2 p x). assert (K : y * y <= d * d).
  { replace (d * d) with (sq f g * sq p x) by (rewrite !sq_dist; unfold d; ring).
    assert (E : sq f g * sq p x = y * y + dot2 (vsub2 g f) (vsub2 x p) * dot2 (vsub2 g f) (vsub2 x p)) by (unfold y; plane; unfold dot2; cbn; ring). pose proof (Rle_0_sqr (dot2 (vsub2 g f) (vsub2 x p))) as S. unfold Rsqr in S. lra. }
  assert (0 <= d) by (apply Rmult_le_pos; apply dist2_pos). destruct (Rle_lt_dec y d) as [L|L]; [exact L|exfalso]. assert (d * d < y * y) by (apply Rmult_le_0_lt_compat; lra). lra.
Qed.
Lemma inside_in a b c x : inside_triangle a b c x -> in_triangle2 a b c x.
Proof.
  intros (A & B & C). pose proof (area_sum a b c x) as S. assert (N : area2 a b c <> 0) by lra. assert (P : 0 < / area2 a b c) by (apply Rinv_0_lt_compat; lra).
  exists (area2 b c x * / area2 a b c), (area2 c a x * / area2 a b c), (area2 a b x * / area2 a b c). split.
  - repeat split; try (apply Rmult_le_pos; lra). rewrite <- !Rmult_plus_distr_r, S. apply Rinv_r, N.
  - apply vec2_ext; revert N; plane; intros N; field; exact N.
Qed.
Lemma find_outside T p V : apart V p -> List.In (dv T 0) V -> List.In (dv T 1) V -> List.In (dv T 2) V -> 0 < ar (dv T 0) (dv T 1) (dv T 2) -> ~ ins (dv T 0) (dv T 1) (dv T 2) (pt p) -> zTri2DPointIsInside (dtri2 pts T) (pt p) zTOL = false.
Proof.
  intros AP I0 I1 I2 P NI. set (a := dv T 0) in *. set (b := dv T 1) in *. set (c := dv T 2) in *. destruct (ar_ne _ _ _ _ P) as (Nab & Nac & Nbc).
  destruct (tri2_closest (dtri2 pts T) (pt p)) as (d & cp & E & (IN & _) & ED); [cbn [dtri2 tw0 tw1 tw2]; fold a b c (ar a b c); lra|]. cbn [dtri2 tw0 tw1 tw2] in IN. fold a b c in IN.
  unfold zTri2DPointIsInside. rewrite E. destruct (Rltb_reflect d zTOL) as [L|L]; [exfalso|reflexivity].
  assert (K : forall f g, List.In f V -> List.In g V -> f <> g -> 0 <= ar f g a -> 0 <= ar f g b -> 0 <= ar f g c -> 0 < ar f g p).
  { intros f g F G N X Y Z. specialize (AP f g F G N). destruct (Rlt_le_dec 0 (ar f g p)) as [H|H]; [exact H|exfalso]. rewrite Rabs_left1 in AP by exact H.
    pose proof (in_tri_area _ _ _ _ (pt f) (pt g) IN X Y Z) as Q. pose proof (area_gap (pt f) (pt g) (pt p) cp) as GAP. fold (ar f g p) in GAP. rewrite <- ED in GAP. pose proof (dist2_pos (pt f) (pt g)) as D.
    assert (dist2 (pt f) (pt g) * d <= dist2 (pt f) (pt g) * zTOL) by (apply Rmult_le_compat_l; lra). lra. }
  assert (Z1 : ar a b a = 0) by apply area_self1. assert (Z2 : ar a b b = 0) by apply area_self2. assert (Z3 : ar b c b = 0) by apply area_self1. assert (Z4 : ar b c c = 0) by apply area_self2. assert (Z5 : ar c a c = 0) by apply area_self1. assert (Z6 : ar c a a = 0) by apply area_self2.
  pose proof (ar_rot pts a b c) as Q1. pose proof (ar_rot pts b c a) as Q2.
  apply NI. split; [|split]; [apply (K b c)|apply (K c a)|apply (K a b)]; auto; lra.
Qed.
Lemma find_ok m V p : mesh m V -> apart V p -> ins 0 1 2 (pt p) -> exists tc T, zDelaunayTri2DListFind pts m p = Some (tc, T) /\ dget m tc = Some T /\ ins (dv T 0) (dv T 1) (dv T 2) (pt p).
Proof.
  intros M AP IN. pose proof (apart_off _ _ AP) as OFF. destruct (M_cov _ _ _ M _ OFF IN) as (t & u & v & w & n & D & IN').
  assert (EX : exists t T, List.In (t, T) m /\ ins (dv T 0) (dv T 1) (dv T 2) (pt p)).
  { destruct D as (T & i & G & I & <- & <- & <- & _). exists t, T. split; [apply dget_in, G|]. destruct i as [|[|[|i]]]; [| | |lia]; cbv [nx nxx Nat.modulo Nat.divmod Nat.add snd fst Nat.sub] in IN'; [exact IN'|apply inside_rot, inside_rot, IN'|apply inside_rot, IN']. }
  assert (ALL : forall t T, List.In (t, T) m -> dget m t = Some T) by (intros s S H; apply in_dget; [exact (M_ids _ _ _ M)|exact H]).
  assert (NOT : forall t T, List.In (t, T) m -> zTri2DPointIsInside (dtri2 pts T) (pt p) zTOL = true -> ins (dv T 0) (dv T 1) (dv T 2) (pt p)).
  { intros s S H Z. apply ALL in H. pose proof (get_dart m s S 0 H ltac:(lia)) as E0. pose proof (get_dart m s S 1 H ltac:(lia)) as E1. pose proof (get_dart m s S 2 H ltac:(lia)) as E2.
    pose proof (M_pos _ _ _ M _ _ _ _ _ E0) as P. apply (M_in _ _ _ M) in E0, E1, E2. change (nx 0) with 1%nat in P. change (nxx 0) with 2%nat in P.
    unfold FactsDel4.ins, inside_triangle. fold (ar (dv S 0) (dv S 1) p) (ar (dv S 1) (dv S 2) p) (ar (dv S 2) (dv S 0) p).
    destruct (Rlt_le_dec 0 (ar (dv S 1) (dv S 2) p)) as [L1|L1]; [destruct (Rlt_le_dec 0 (ar (dv S 2) (dv S 0) p)) as [L2|L2]; [destruct (Rlt_le_dec 0 (ar (dv S 0) (dv S 1) p)) as [L3|L3]; [auto|]|]|]; exfalso;
      (rewrite (find_outside S p V AP E0 E1 E2 P) in Z; [discriminate|]); intros (X1 & X2 & X3); unfold FactsDel4.ar in *; lra. }
  assert (YES : forall T, ins (dv T 0) (dv T 1) (dv T 2) (pt p) -> zTri2DPointIsInside (dtri2 pts T) (pt p) zTOL = true).
  { intros S H. pose proof zTOL_pos as Z. unfold zTri2DPointIsInside. rewrite tri2_inside.
    - destruct (Rltb_reflect 0 zTOL); [reflexivity|lra].
    - cbn [dtri2 tw0 tw1 tw2]. pose proof (area_sum (pt (dv S 0)) (pt (dv S 1)) (pt (dv S 2)) (pt p)) as SUM. destruct H as (H1 & H2 & H3). lra.
    - apply inside_in. exact H. }
  clear D IN' t u v w n. revert EX ALL NOT. generalize m at 1 2 4 5 as l. induction l as [|(s, S) r IH]; intros (t & T & H & IT) ALL NOT; [destruct H|]. cbn [zDelaunayTri2DListFind].
  destruct (zTri2DPointIsInside (dtri2 pts S) (pt p) zTOL) eqn:Z.
  - exists s, S. split; [reflexivity|]. split; [apply ALL; left; reflexivity|]. apply (NOT s); [left; reflexivity|exact Z].
  - apply IH.
    + destruct H as [E|H]; [injection E as -> ->; rewrite (YES T IT) in Z; discriminate|eauto].
    + intros t' T' H'. apply ALL. right. exact H'.
    + intros t' T' H'. apply (NOT t'). right. exact H'.
Qed.

(** ** one point after another *)
Record triangulating (st : mem * nat) (V : list nat) : Prop := {
  T_mesh : mesh (fst st) V;
  T_empty : empty_circles pts (fst st) V;
  T_fresh : fresh (fst st) (snd st);
  T_rim : forall q, List.In q V -> in_rim pts q }.
Lemma len_filter_le {A} (f : A -> bool) l : (length (filter f l) <= length l)%nat.
Proof. induction l as [|y r IH]; cbn [filter length]; [lia|]. destruct (f y); cbn [length]; lia. Qed.
Lemma len_filter tc (m : mem) : NoDup (ids m) -> List.In tc (ids m) -> length m = S (length (filter (fun c => negb (Nat.eqb (fst c) tc)) m)).
Proof.
  induction m as [|(s, X) r IH]; cbn [ids map fst List.In filter length]; [tauto|]. intros ND H. inversion ND as [|? ? N1 N2]; subst. destruct (Nat.eqb_spec s tc) as [->|N]; cbn [negb].
  - f_equal. clear - N1. induction r as [|(s, Y) r IH]; cbn [filter fst length map List.In] in *; [reflexivity|]. destruct (Nat.eqb_spec s tc) as [->|N]; [exfalso; apply N1; left; reflexivity|]. cbn [negb length]. f_equal. apply IH. tauto.
  - cbn [length]. f_equal. apply IH; [exact N2|]. destruct H as [H|H]; [congruence|exact H].
Qed.
Lemma update_ok st V p : triangulating st V -> apart V p -> ins 0 1 2 (pt p) -> ~ List.In p V ->
  exists st', (forall fuel, (2 * length (fst st) + 7 <= fuel)%nat -> zDelaunay2DUpdate pts fuel st p = DDone st') /\ triangulating st' (p :: V) /\ length (fst st') = (length (fst st) + 2)%nat.
Proof.
  destruct st as (m, new). intros [M EC FR RM] AP IN NP. cbn [fst snd] in *. destruct (find_ok m V p M AP IN) as (tc & T & F & GT & INP). pose proof (apart_off _ _ AP) as OFF.
  destruct (sub_legalizing m V new tc p T M FR GT INP OFF NP EC) as (m1 & ps & SB & ID & PU & LP & LG). destruct (legalize_all pts (p :: V) p m1 ps LG) as (m' & LZ & LG' & ID').
  assert (LEN : length m1 = (length m + 2)%nat). { rewrite <- (map_length fst m1). fold (ids m1). rewrite ID, app_length. unfold ids. rewrite map_length. cbn [length]. assert (K : List.In tc (ids m)) by (apply dget_ids; eauto). pose proof (len_filter tc m (M_ids _ _ _ M) K) as LF. unfold mem in *. lia. }
  assert (FAR : (far p m1 <= length m1)%nat) by (rewrite <- (map_length fst m1); apply len_filter_le).
  exists (m', (new + 3)%nat). split; [|split].
  - intros fuel HF. unfold zDelaunay2DUpdate. rewrite F. unfold subdivide in SB. cbv zeta in SB |- *.
    destruct (zDelaunayTri2DBind (dput _ new _) new 0 _) as [x1|]; [|discriminate]. destruct (zDelaunayTri2DBind (dput x1 (new + 1) _) (new + 1) 1 _) as [x2|]; [|discriminate]. rewrite SB.
    destruct (zDelaunayPair2DStackPush m1 [] new 0) as [p1|]; [|discriminate]. destruct (zDelaunayPair2DStackPush m1 p1 (new + 1) 1) as [p2|]; [|discriminate]. rewrite PU. rewrite LZ; [reflexivity|]. lia.
  - pose proof (L_mesh _ _ _ _ _ LG') as M'. assert (RM' : forall q, List.In q (p :: V) -> in_rim pts q) by (intros q [<-|Q]; [destruct IN as (A & B & C); unfold in_rim, FactsDel4.ar; lra|apply RM, Q]). constructor; cbn [fst snd].
    + exact M'.
    + apply global; [exact M'|exact (legalized _ _ _ _ LG')|exact RM'].
    + intros x X. rewrite ID', ID in X. apply in_app_iff in X. destruct X as [X|X]; [|cbn [List.In] in X; lia]. apply in_map_iff in X. destruct X as (y & <- & Y). apply filter_In in Y. destruct Y as (Y & _). apply (in_map fst) in Y. apply FR in Y. lia.
    + exact RM'.
  - cbn [fst]. rewrite <- LEN. rewrite <- (map_length fst m'), <- (map_length fst m1). fold (ids m') (ids m1). rewrite ID'. reflexivity.
Qed.
Definition spread (W : list nat) : Prop := forall i j k, List.In i W -> List.In j W -> List.In k W -> i <> j -> i <> k -> j <> k -> zTOL * dist2 (pt i) (pt j) < Rabs (ar i j k).
Lemma all_ok ps : forall st V, triangulating st V -> NoDup (ps ++ V) -> spread (ps ++ V) -> (forall p, List.In p ps -> ins 0 1 2 (pt p)) ->
  exists st' V', (forall fuel, (2 * length (fst st) + 4 * length ps + 3 <= fuel)%nat -> zDelaunay2DAll pts fuel st ps = DDone st') /\ triangulating st' V' /\ (forall q, List.In q V' <-> List.In q (ps ++ V)) /\ length (fst st') = (length (fst st) + 2 * length ps)%nat.
Proof.
  induction ps as [|p ps IH]; intros st V T ND SP IN.
  - exists st, V. split; [reflexivity|]. split; [exact T|]. split; [reflexivity|]. cbn [length]. lia.
  - cbn [app] in ND. inversion ND as [|? ? N1 N2]; subst. destruct (update_ok st V p T) as (st1 & F1 & T1 & L1).
    + intros i j I J N. apply SP; cbn [app List.In]; rewrite ?in_app_iff; auto; intros ->; apply N1, in_app_iff; auto.
    + apply IN. left. reflexivity.
    + intros H. apply N1, in_app_iff. auto.
    + assert (PERM : forall q, List.In q (ps ++ p :: V) <-> List.In q ((p :: ps) ++ V)). { intros q. cbn [app List.In]. rewrite !in_app_iff. cbn [List.In]. tauto. }
      destruct (IH st1 (p :: V) T1) as (st' & V' & F & T' & E & L).
      * apply NoDup_Add with (l := ps ++ V) (a := p); [apply Add_app|]. auto.
      * intros i j k I J K. apply SP; apply PERM; assumption.
      * intros q Q. apply IN. right. exact Q.
      * exists st', V'. split; [|split; [exact T'|split; [intros q; rewrite E; apply PERM|cbn [length]; lia]]].
        intros fuel HF. cbn [length] in HF. cbn [zDelaunay2DAll]. rewrite F1 by lia. apply F. lia.
Qed.
Lemma outer_ok : 0 < ar 0 1 2 -> triangulating ([(0%nat, DT (of3 0%nat 1%nat 2%nat) (of3 None None None))], 1%nat) [0%nat; 1%nat; 2%nat].
Proof.
  intros P. set (m := [(0%nat, DT (of3 0%nat 1%nat 2%nat) (of3 None None None))]). pose proof (ar_rot pts 0 1 2) as Q1. pose proof (ar_rot pts 1 2 0) as Q2.
  assert (D : forall t u v w n, dart m t u v w n -> t = 0%nat /\ n = None /\ (u = 0%nat /\ v = 1%nat /\ w = 2%nat \/ u = 1%nat /\ v = 2%nat /\ w = 0%nat \/ u = 2%nat /\ v = 0%nat /\ w = 1%nat)).
  { intros t u v w n (T & i & G & I & <- & <- & <- & <-). cbn [m dget] in G. destruct (Nat.eqb_spec 0 t) as [<-|]; [|discriminate]. injection G as <-. split; [reflexivity|]. three i I; cbv; intuition. }
  assert (Z1 : ar 0 1 0 = 0) by apply area_self1. assert (Z2 : ar 0 1 1 = 0) by apply area_self2. assert (Z3 : ar 1 2 1 = 0) by apply area_self1. assert (Z4 : ar 1 2 2 = 0) by apply area_self2. assert (Z5 : ar 2 0 2 = 0) by apply area_self1. assert (Z6 : ar 2 0 0 = 0) by apply area_self2.
  constructor; cbn [fst snd].
  - constructor.
    + repeat constructor. intros [].
    + intros t u v w n H. destruct (D _ _ _ _ _ H) as (_ & _ & [(-> & -> & ->)|[(-> & -> & ->)|(-> & -> & ->)]]); lra.
    + intros t u v w n H. destruct (D _ _ _ _ _ H) as (_ & _ & [(-> & -> & ->)|[(-> & -> & ->)|(-> & -> & ->)]]); cbn [List.In]; tauto.
    + intros t u v w a H. destruct (D _ _ _ _ _ H) as (_ & K & _). discriminate.
    + intros t u v w H. destruct (D _ _ _ _ _ H) as (_ & _ & [(-> & -> & ->)|[(-> & -> & ->)|(-> & -> & ->)]]); unfold rim; tauto.
    + intros q t u v w n Q H. destruct (D _ _ _ _ _ H) as (_ & _ & [(-> & -> & ->)|[(-> & -> & ->)|(-> & -> & ->)]]); cbn [List.In] in Q; intuition.
    + intros x _ IN. exists 0%nat, 0%nat, 1%nat, 2%nat, None. split; [|exact IN]. exists (DT (of3 0%nat 1%nat 2%nat) (of3 None None None)), 0%nat. repeat split. lia.
    + intros x t u v w n t' u' v' w' n' _ H _ H' _. destruct (D _ _ _ _ _ H) as (-> & _). destruct (D _ _ _ _ _ H') as (-> & _). reflexivity.
  - intros t u v w n q H Q. unfold powi. assert (K : powi pts 0 1 2 q = 0). { cbn [List.In] in Q. destruct Q as [<-|[<-|[<-|[]]]]; [apply pow_a|apply pow_b; fold (ar 0 1 2); lra|apply pow_c; fold (ar 0 1 2); lra]. }
    destruct (D _ _ _ _ _ H) as (_ & _ & [(-> & -> & ->)|[(-> & -> & ->)|(-> & -> & ->)]]); [fold (powi pts 0 1 2 q); lra|rewrite <- pow_rot; [fold (powi pts 0 1 2 q); lra|fold (ar 0 1 2); lra]|rewrite <- pow_rot, <- pow_rot; [fold (powi pts 0 1 2 q); lra|fold (ar 0 1 2); lra|fold (ar 1 2 0); lra]].
  - intros x X. cbn [ids m map fst List.In] in X. lia.
  - intros q Q. unfold in_rim. cbn [List.In] in Q. destruct Q as [<-|[<-|[<-|[]]]]; lra.
Qed.
End Insert.

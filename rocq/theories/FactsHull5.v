(** Planar hull: the theorem *)
From Verif Require Import Base Spec SpecGeom SpecHull ModelVec ModelElem ModelHull FactsVec FactsAlg FactsElem FactsHull FactsHull2 FactsHull3 FactsHull4.
From Coq Require Import List Lia Lra ZArith Sorting.Sorted Sorting.Permutation.
Import ListNotations.
Open Scope R_scope.

Lemma last_rev {A} (x : A) r d : last (rev (x :: r)) d = x.
Proof. cbn. apply last_last. Qed.
Lemma in_last {A} (l : list A) d : l <> [] -> List.In (last l d) l.
Proof. intros H. destruct (exists_last H) as (r & x & ->). rewrite last_last. apply in_or_app. right. left. reflexivity. Qed.
Lemma ordered_lexle s0 s1 a b : ordered s0 s1 a b -> lexle s0 s1 a b.
Proof. intros [<-|H]; [right; split; reflexivity|left; exact H]. Qed.
Lemma sorted_last s0 s1 A d q : StronglySorted (ordered s0 s1) A -> List.In q A -> ordered s0 s1 q (last A d).
Proof.
  intros S I. assert (N : A <> []) by (intros ->; destruct I). destruct (exists_last N) as (r & x & ->). rewrite last_last. apply in_app_or in I. destruct I as [I|[<-|[]]]; [|left; reflexivity].
  clear N. induction r as [|y r IH]; [destruct I|]. cbn in S. apply StronglySorted_inv in S. destruct S as (S & F). destruct I as [<-|I]; [|apply IH; assumption]. rewrite Forall_forall in F. apply F. apply in_or_app. right. left. reflexivity.
Qed.
Theorem hull_ok sort l o nn s0 s1 : sorts sort -> planar o nn l -> zConvexHull2DBase l = Some (s0, s1) -> parted s0 s1 l ->
  exists L n, zVec3DDataConvexHull2D sort l = Some L /\ (3 <= length L)%nat /\ incl L l /\ planar o n l /\
    (forall a b q, loop_edge L a b -> List.In q l -> 0 <= dot n (cross (vsub b a) (vsub q a))) /\
    (forall a b c, loop_turn L a b c -> 0 < dot n (cross (vsub b a) (vsub c a))) /\
    (forall q, List.In q l -> convex_hull L q).
Proof.
  intros So Hp Hb Pt. unfold zVec3DDataConvexHull2D, zConvexHull2D. rewrite Hb.
  destruct (base_frame l s0 s1 Hb) as (t & r0 & a0 & b0 & n & k0 & k1 & El & Ia & Ib & Hu & Hn & Hnz & K0 & K1 & Es0 & Es1).
  assert (It : List.In t l) by (rewrite El; left; reflexivity).
  assert (Te : tells s0 s1 l). { rewrite Es0, Es1. apply (plane_tells o nn l t a0 b0 n k0 k1); try assumption. intros p q I J. apply (Pt p q I J). }
  assert (BT : 0 < turn s0 s1 t a0 b0) by (rewrite Es0, Es1; apply base_turn with (b := b0); assumption).
  assert (FN : exists k, k <> 0 /\ cross s1 s0 = vscale k nn) by (rewrite Es0, Es1; apply (frame_normal o nn l t a0 b0 n k0 k1); assumption).
  destruct (sorted_frame sort s0 s1 l So Pt Te) as (Pm & Sd). set (A := sort (z_ch2d_cmp s0 s1) l) in *. cbv zeta.
  assert (TA : tells s0 s1 A) by (apply (tells_incl s0 s1 l); [intros x; apply Permutation_in, Pm|exact Te]).
  assert (Al : forall x, List.In x l -> List.In x A) by (intros x; apply Permutation_in, Permutation_sym, Pm).
  assert (Ar : forall x, List.In x A -> List.In x l) by (intros x; apply Permutation_in, Pm).
  assert (T0 : forall m, (forall q, List.In q A -> q = m) -> False).
  { intros m H. rewrite (H t (Al _ It)), (H a0 (Al _ Ia)), (H b0 (Al _ Ib)) in BT. unfold turn in BT. lra. }
  assert (Ex : forall m, exists q, List.In q A /\ q <> m).
  { intros m. destruct (vec_dec t m) as [E1|E1]; [|exists t; split; [apply Al, It|exact E1]]. destruct (vec_dec a0 m) as [E2|E2]; [|exists a0; split; [apply Al, Ia|exact E2]]. subst. unfold turn in BT. lra. }
  destruct A as [|p0 rest] eqn:EA. { destruct (Al t It). }
  destruct (wrap_first s0 s1 (p0 :: rest) TA (length (p0 :: rest)) p0 rest) as (up & d & Eu & Iu & Pu & Du & Cu); [cbn; lia|reflexivity|exact Sd|apply Ex|]. rewrite Eu.
  set (m := last (p0 :: rest) p0) in *.
  destruct (rev (p0 :: rest)) as [|m' rest'] eqn:ER. { apply (f_equal (@length vec3)) in ER. rewrite rev_length in ER. discriminate. }
  assert (Em : m' = m). { unfold m. rewrite <- (rev_involutive (p0 :: rest)), ER, last_rev. reflexivity. } subst m'.
  assert (RA : forall x, List.In x (m :: rest') <-> List.In x (p0 :: rest)) by (intros x; rewrite <- ER; symmetry; apply in_rev).
  assert (Lr : last (m :: rest') m = p0). { rewrite <- ER. cbn [rev]. apply last_last. }
  destruct (wrap_first (zVec3DRev s0) (zVec3DRev s1) (m :: rest')) with (fuel := length (p0 :: rest)) (p0 := m) (rest := rest') as (low & d' & Ew & Iw & Pw & Dw & Cw).
  { apply tells_rev, (tells_incl s0 s1 (p0 :: rest)); [intros x; apply RA|exact TA]. }
  { rewrite <- (rev_length (p0 :: rest)), ER. cbn. lia. }
  { reflexivity. }
  { rewrite <- ER. apply (sorted_impl (fun x y => ordered s0 s1 y x)); [|apply sorted_rev, Sd]. intros x y _ _ [->|H]; [left; reflexivity|right; apply before_rev, H]. }
  { destruct (Ex m) as (q & I & N). exists q. split; [apply RA, I|exact N]. }
  rewrite Ew. rewrite Lr in Pw.
  (* shape of the two paths *)
  assert (Up : exists up', up = p0 :: up'). { destruct up as [|x up]; [injection Pu as _ <-; contradiction|]. injection Pu as -> _. exists up. reflexivity. } destruct Up as (up' & ->).
  assert (Lo : exists low', low = m :: low'). { destruct low as [|x low]; [injection Pw as _ <-; contradiction|]. injection Pw as -> _. exists low. reflexivity. } destruct Lo as (low' & ->).
  set (L := (p0 :: up') ++ m :: low'). injection Pu as Pu. injection Pw as Pw.
  assert (CU : forall a b, adj (p0 :: up' ++ [m]) a b -> before s0 s1 a b /\ forall q, List.In q (p0 :: rest) -> turn s0 s1 a b q <= 0).
  { intros a b J. rewrite Pu in J. exact (chain_adj s0 s1 _ _ _ _ Cu J). }
  assert (CW : forall a b, adj (m :: low' ++ [p0]) a b -> before s0 s1 b a /\ forall q, List.In q (p0 :: rest) -> turn s0 s1 a b q <= 0).
  { intros a b J. rewrite Pw in J. destruct (chain_adj _ _ _ _ _ _ Cw J) as (B & H). split; [apply before_rev, B|]. intros q I. rewrite <- turn_rev. apply H, RA, I. }
  assert (CU3 : forall a b c, adj3 (p0 :: up' ++ [m]) a b c -> turn s0 s1 a b c < 0) by (intros a b c J; rewrite Pu in J; exact (chain_adj3 s0 s1 _ _ _ _ _ Cu J)).
  assert (CW3 : forall a b c, adj3 (m :: low' ++ [p0]) a b c -> turn s0 s1 a b c < 0) by (intros a b c J; rewrite Pw in J; rewrite <- turn_rev; exact (chain_adj3 _ _ _ _ _ _ _ Cw J)).
  assert (IL : incl L l). { intros x I. apply Ar. apply in_app_or in I. destruct I as [I|I]; [apply Iu, I|apply RA, Iw, I]. }
  assert (ED : forall a b, loop_edge L a b -> adj (p0 :: up' ++ [m]) a b \/ adj (m :: low' ++ [p0]) a b).
  { intros a b J. unfold loop_edge, L in J. cbn [firstn app] in J. change (adj (p0 :: (up' ++ m :: low') ++ [p0]) a b) in J. rewrite <- app_assoc in J.
    change (adj ((p0 :: up') ++ m :: (low' ++ [p0])) a b) in J. apply adj_split in J. exact J. }
  assert (Lm : exists x, List.In x (low' ++ [p0]) /\ exists y, low' ++ [p0] = x :: y). { destruct low'; [exists p0; split; [left; reflexivity|exists []; reflexivity]|exists v; split; [left; reflexivity|eexists; reflexivity]]. }
  assert (Coll : forall a b, before s0 s1 a b -> (forall q, List.In q (p0 :: rest) -> turn s0 s1 a b q = 0) -> False).
  { intros a b B H. assert (Z : turn s0 s1 t a0 b0 = 0) by (apply (collinear3 s0 s1 a b); [exact B|apply H, Al, It|apply H, Al, Ia|apply H, Al, Ib]). lra. }
  assert (TR : forall a b c, loop_turn L a b c -> turn s0 s1 a b c < 0).
  { intros a b c J. unfold loop_turn in J. assert (F2 : exists u1, L ++ firstn 2 L = (p0 :: up') ++ m :: (low' ++ [p0]) ++ [u1] /\ adj (p0 :: up' ++ [m]) p0 u1).
    { unfold L. destruct up' as [|u up']; cbn [firstn app].
      - exists m. split; [|exists [], []; reflexivity]. rewrite <- app_assoc. reflexivity.
      - exists u. split; [|exists [], (up' ++ [m]); reflexivity]. rewrite <- !app_assoc. cbn. rewrite <- ?app_assoc. reflexivity. }
    destruct F2 as (u1 & EF & Ju). rewrite EF in J. change (adj3 ((p0 :: up') ++ m :: ((low' ++ [p0]) ++ [u1])) a b c) in J. apply adj3_split in J. destruct J as [J|[J|(-> & (x' & Ex') & (y' & Ey'))]].
    - apply CU3, J.
    - rewrite <- app_assoc in J. change (adj3 ((m :: low') ++ p0 :: [u1]) a b c) in J. apply adj3_split in J. destruct J as [J|[J|(-> & (x' & Ex') & (y' & Ey'))]].
      + apply CW3, J.
      + destruct J as (p & s & J). destruct p as [|? [|? [|? ?]]]; discriminate.
      + injection Ey' as -> <-. destruct (CU p0 c Ju) as (B1 & H1). assert (Ja : adj (m :: low' ++ [p0]) a p0). { change (adj ((m :: low') ++ [p0]) a p0). rewrite Ex'. rewrite <- app_assoc. exists x', []. reflexivity. }
        destruct (CW a p0 Ja) as (B2 & H2). assert (Ic : List.In c (p0 :: rest)). { apply adj_in in Ju. destruct Ju as (_ & Ju). destruct Ju as [<-|Ju]; [left; reflexivity|]. apply in_app_or in Ju. destruct Ju as [Ju|[<-|[]]]; [apply Iu; right; exact Ju|]. apply in_last. discriminate. }
        destruct (joint (zVec3DRev s0) (zVec3DRev s1) (p0 :: rest) a p0 c) as [Z|Z]; [apply before_rev, B2|apply before_rev, B1|intros q I; rewrite turn_rev; apply H2, I|intros q I; rewrite turn_rev; apply H1, I|exact Ic| |rewrite turn_rev in Z; exact Z].
        exfalso. assert (Z' : forall q, List.In q (p0 :: rest) -> turn s0 s1 p0 a q = 0). { intros q I. specialize (Z q I). rewrite turn_rev in Z. unfold turn in *. lra. } exact (Coll p0 a B2 Z').
    - assert (Ja : adj (p0 :: up' ++ [m]) a m). { change (adj ((p0 :: up') ++ [m]) a m). rewrite Ex'. rewrite <- app_assoc. exists x', []. reflexivity. }
      assert (Jc : adj (m :: low' ++ [p0]) m c). { destruct Lm as (x & _ & (y & Ey)). rewrite Ey in Ey' |- *. injection Ey' as -> _. exists [], y. reflexivity. }
      destruct (CU a m Ja) as (B1 & H1). destruct (CW m c Jc) as (B2 & H2).
      assert (Ic : List.In c (p0 :: rest)). { apply RA. destruct Lm as (x & Ix & (y & Ey)). rewrite Ey in Ey'. injection Ey' as -> _. apply in_app_or in Ix. destruct Ix as [Ix|[<-|[]]]; [apply Iw; right; exact Ix|apply RA; left; reflexivity]. }
      destruct (joint s0 s1 (p0 :: rest) a m c B1 B2 H1 H2 Ic) as [Z|Z]; [exfalso; exact (Coll a m B1 Z)|exact Z]. }
  exists L, (cross s1 s0). split; [reflexivity|].
  assert (Len : (2 <= length L)%nat) by (unfold L; rewrite app_length; cbn; lia). split.
  { destruct L as [|x [|y [|z L']]] eqn:EL; cbn in Len |- *; try lia. exfalso. assert (J : loop_turn [x; y] x y x) by (exists [], [y]; reflexivity). apply TR in J. unfold turn in J. lra. }
  split; [exact IL|]. split.
  { destruct FN as (k & Kz & ->). destruct Hp as (Nz & Hp). split.
    - intros Z. apply Nz. apply vec3_ext; [apply (f_equal vx) in Z|apply (f_equal vy) in Z|apply (f_equal vz) in Z]; spec_unfold; apply Rmult_integral in Z; destruct Z; try contradiction; assumption.
    - intros p I. specialize (Hp p I). replace (dot (vscale k nn) (vsub p o)) with (k * dot nn (vsub p o)) by (spec_unfold; ring). rewrite Hp. ring. }
  split; [|split].
  - intros a b q J I. rewrite binet. destruct (ED a b J) as [K|K]; [destruct (CU a b K) as (_ & H)|destruct (CW a b K) as (_ & H)]; specialize (H q (Al q I)); lra.
  - intros a b c J. rewrite binet. specialize (TR a b c J). lra.
  - intros q I. pose proof (Al q I) as Iq.
    assert (F1 : lexle s0 s1 p0 q). { apply ordered_lexle. apply StronglySorted_inv in Sd. destruct Sd as (_ & F). rewrite Forall_forall in F. destruct Iq as [<-|Iq]; [left; reflexivity|apply F, Iq]. }
    assert (F2 : lexle s0 s1 q m) by (apply ordered_lexle, sorted_last; assumption).
    destruct (chain_cover s0 s1 _ _ Cu p0 d q eq_refl Du F1) as (a & b & J1 & La & Lb). { rewrite <- Pu. change (p0 :: up' ++ [m]) with ((p0 :: up') ++ [m]). rewrite last_last. exact F2. }
    assert (RL : forall x y, lexle (zVec3DRev s0) (zVec3DRev s1) x y <-> lexle s0 s1 y x).
    { intros x y. unfold lexle. rewrite before_rev. pose proof (cx_rev s0 x). pose proof (cx_rev s0 y). pose proof (cy_rev s1 x). pose proof (cy_rev s1 y). split; intros [H4|[H4 H5]]; [left; exact H4|right; lra|left; exact H4|right; lra]. }
    destruct (chain_cover _ _ _ _ Cw m d' q eq_refl Dw) as (c & e & J2 & Lc & Le). { apply RL, F2. } { rewrite <- Pw. change (m :: low' ++ [p0]) with ((m :: low') ++ [p0]). rewrite last_last. apply RL, F1. }
    rewrite <- Pu in J1. rewrite <- Pw in J2. apply -> RL in Lc. apply -> RL in Le.
    assert (IU : forall x, List.In x (p0 :: up' ++ [m]) -> List.In x L). { intros x [<-|J]; [left; reflexivity|]. right. apply in_app_or in J. apply in_or_app. destruct J as [J|[<-|[]]]; [left; exact J|right; left; reflexivity]. }
    assert (IW : forall x, List.In x (m :: low' ++ [p0]) -> List.In x L). { intros x [<-|J]; [apply in_or_app; right; left; reflexivity|]. apply in_app_or in J. destruct J as [J|[<-|[]]]; [apply in_or_app; right; right; exact J|left; reflexivity]. }
    apply (between_edges s0 s1 n) with (a := a) (b := b) (c := c) (d := e).
    + intros w. rewrite Es0, Es1. apply (frame_zero o nn l t a0 b0 n k0 k1); assumption.
    + apply IU, (adj_in _ _ _ J1).
    + apply IU, (adj_in _ _ _ J1).
    + apply IW, (adj_in _ _ _ J2).
    + apply IW, (adj_in _ _ _ J2).
    + intros p J. apply (n_diff o nn l t a0 b0 n); try assumption. apply IL, J.
    + exact La.
    + exact Lb.
    + apply (CU a b J1). exact Iq.
    + exact Le.
    + exact Lc.
    + apply (CW c e J2). exact Iq.
Qed.

(** Legalising the edges around a new point. *)
From Verif Require Import ModelDel SpecDel FactsElem FactsCentre FactsDel FactsDel2 FactsDel3 FactsDel4 FactsDel5.
From Coq Require Import List Lra Lia Bool.
Import ListNotations.
Open Scope R_scope.

Section Legalize.
Variable pts : list vec2.
Notation pt := (dpt pts).
Variables (V : list nat) (p : nat).
Definition wit (v : nat) : Prop := exists o k, pw o k (pt p) = 0 /\ pw o k (pt v) = 0 /\ forall q, List.In q V -> 0 <= pw o k (pt q).
Record legalizing (m : mem) (ps : list (nat * nat)) : Prop := {
  L_mesh : mesh pts m V;
  L_old : forall t u v w n q, dart m t u v w n -> u <> p -> v <> p -> w <> p -> List.In q V -> q <> p -> 0 <= powi pts u v w q;
  L_wit : forall t v w n, dart m t p v w n -> wit v /\ wit w;
  L_stk : forall t u v a w' n, dart m t u v p (Some a) -> dart m a v u w' n -> (exists i, List.In (t, i) ps) \/ 0 <= powi pts u v p w';
  L_ps : forall t i, List.In (t, i) ps -> (i < 3)%nat /\ exists T, dget m t = Some T /\ dv T (nxx i) = p }.

Lemma legalized m : legalizing m [] -> legal pts m.
Proof.
  intros [M OLD WIT STK _] t u v w a w' n D D'. pose proof (mesh_apex _ _ _ _ _ _ _ _ _ _ M D D') as ->. pose proof (M_pos _ _ _ M _ _ _ _ _ D) as P. pose proof (M_pos _ _ _ M _ _ _ _ _ D') as P'.
  assert (SW : powi pts u v w w' * ar pts u v w = powi pts v u w' w * ar pts v u w') by (apply pow_swap; assumption).
  assert (SW' : 0 <= powi pts v u w' w -> 0 <= powi pts u v w w').
  { intros K. assert (0 <= powi pts u v w w' * ar pts u v w) by (rewrite SW; apply Rmult_le_pos; lra). destruct (Rle_lt_dec 0 (powi pts u v w w')) as [L|L]; [exact L|exfalso]. assert (0 < - powi pts u v w w' * ar pts u v w) by (apply Rmult_lt_0_compat; lra). lra. }
  destruct (dart_rot _ _ _ _ _ _ D) as (n1 & D1). destruct (dart_rot _ _ _ _ _ _ D1) as (n2 & D2). destruct (dart_rot _ _ _ _ _ _ D') as (n3 & D3). destruct (dart_rot _ _ _ _ _ _ D3) as (n4 & D4).
  pose proof (M_in _ _ _ M _ _ _ _ _ D2) as Vw. pose proof (M_in _ _ _ M _ _ _ _ _ D4) as Vw'.
  destruct (Nat.eq_dec w p) as [->|N1]; [destruct (STK _ _ _ _ _ _ D D') as [(i & [])|K]; exact K|].
  destruct (Nat.eq_dec w' p) as [->|N2]; [apply SW'; destruct (STK _ _ _ _ _ _ D' D) as [(i & [])|K]; exact K|].
  destruct (Nat.eq_dec u p) as [->|N3].
  { destruct (WIT _ _ _ _ D) as ((o & k & Z1 & Z2 & E) & _). apply (spoke_legal o k); auto. fold (ar pts p v w'). rewrite ar_swap. lra. }
  destruct (Nat.eq_dec v p) as [->|N4].
  { apply SW'. destruct (WIT _ _ _ _ D') as ((o & k & Z1 & Z2 & E) & _). apply (spoke_legal o k); auto. fold (ar pts p u w). rewrite ar_swap. lra. }
  exact (OLD _ _ _ _ _ _ D N3 N4 N1 Vw' N2).
Qed.

(** how many triangles are not yet around the new point *)
Definition away (m : mem) (x : nat) : bool := match dget m x with Some X => negb (existsb (fun i => Nat.eqb (dv X i) p) [0%nat; 1%nat; 2%nat]) | None => false end.
Definition far (m : mem) : nat := length (filter (away m) (ids m)).
Lemma away_true m x : away m x = true <-> exists X, dget m x = Some X /\ forall i, (i < 3)%nat -> dv X i <> p.
Proof.
  unfold away. destruct (dget m x) as [X|]; [|split; [discriminate|intros (X & E & _); discriminate]]. rewrite negb_true_iff. split.
  - intros H. exists X. split; [reflexivity|]. intros i I E. assert (existsb (fun i => Nat.eqb (dv X i) p) [0%nat; 1%nat; 2%nat] = true); [|congruence]. apply existsb_exists. exists i. split; [cbn [List.In]; lia|apply Nat.eqb_eq, E].
  - intros (Y & E & H). injection E as <-. destruct (existsb _ _) eqn:K; [|reflexivity]. apply existsb_exists in K. destruct K as (i & I & K). apply Nat.eqb_eq in K. exfalso. apply (H i); [cbn [List.In] in I; lia|exact K].
Qed.
Lemma circum_test T c : ar pts (dv T 0) (dv T 1) (dv T 2) <> 0 -> zTri2DCircumcenter (dtri2 pts T) = Some c -> forall q i, (i < 3)%nat ->
  powi pts (dv T i) (dv T (nx i)) (dv T (nxx i)) q = sq (pt q) c - sq (pt (dv T 0)) c.
Proof.
  intros Z E q i I. destruct (circum2_ok (pt (dv T 0)) (pt (dv T 1)) (pt (dv T 2)) Z) as (c' & E' & D1 & D2). change (zTri2DCircumcenter (dtri2 pts T)) with (triCircumcenter2 (pt (dv T 0)) (pt (dv T 1)) (pt (dv T 2))) in E.
  rewrite E' in E. injection E as ->. apply dist2_eq in D1, D2. rewrite !(sq_sym c) in D1, D2.
  assert (Z1 : ar pts (dv T 1) (dv T 2) (dv T 0) <> 0) by (rewrite <- ar_rot; exact Z).
  assert (K : powi pts (dv T 0) (dv T 1) (dv T 2) q = sq (pt q) c - sq (pt (dv T 0)) c) by (apply pow_circ; [exact Z|split; lra]).
  destruct i as [|[|[|i]]]; [| | |exfalso; lia]; cbv [nx nxx Nat.modulo Nat.divmod Nat.add snd fst Nat.sub]; [exact K|rewrite <- powi_rot; assumption|rewrite <- powi_rot, <- powi_rot; assumption].
Qed.
Lemma legalize_one m t i ps : legalizing m ((t, i) :: ps) ->
  exists m' ps', zDelaunay2DLegalizeOne pts m t i ps = Some (m', ps') /\ legalizing m' ps' /\ ids m' = ids m /\ (2 * far m' + length ps' < 2 * far m + S (length ps))%nat.
Proof.
  intros LG. destruct (L_ps _ _ LG t i (or_introl eq_refl)) as (I & T & GT & PT). pose proof (L_mesh _ _ LG) as M.
  unfold zDelaunay2DLegalizeOne. rewrite GT. pose proof (get_dart m t T i GT I) as Dt. rewrite PT in Dt.
  set (u := dv T i) in *. set (v := dv T (nx i)) in *.
  assert (ONLY : forall f g e, dart m t f g p e -> f = u /\ g = v /\ e = dadj T i).
  { intros f g e D. destruct (ar_ne _ _ _ _ (M_pos _ _ _ M _ _ _ _ _ Dt)) as (N1 & N2 & N3). destruct (dart_only _ _ _ _ _ _ _ _ _ _ Dt D) as [(-> & -> & _)|[(-> & -> & E)|(-> & -> & E)]]; [|congruence|congruence].
    destruct (mesh_fun _ _ _ _ _ _ _ _ _ _ _ M Dt D) as (_ & _ & E). auto. }
  (* nothing done *)
  assert (NOOP : (forall f g a w' n, dart m t f g p (Some a) -> dart m a g f w' n -> 0 <= powi pts f g p w') -> exists m' ps', Some (m, ps) = Some (m', ps') /\ legalizing m' ps' /\ ids m' = ids m /\ (2 * far m' + length ps' < 2 * far m + S (length ps))%nat).
  { intros K. exists m, ps. split; [reflexivity|]. split; [|split; [reflexivity|lia]]. destruct LG as [L1 L2 L3 L4 L5]. constructor; auto.
    - intros x f g b w' n D D'. destruct (Nat.eq_dec x t) as [->|NX]; [right; exact (K _ _ _ _ _ D D')|]. destruct (L4 _ _ _ _ _ _ D D') as [(j & [E|J])|J]; [congruence|left; eauto|right; exact J].
    - intros x j J. apply L5. right. exact J. }
  destruct (dadj T i) as [a|] eqn:AT.
  2:{ apply NOOP. intros f g a w' n D D'. destruct (ONLY _ _ _ D) as (_ & _ & E). congruence. }
  destruct (M_adj _ _ _ M _ _ _ _ _ Dt) as (n0 & Da). destruct (dart_get _ _ _ _ _ _ Da) as (A & GA). rewrite GA.
  destruct (zDelaunayTri2DFindAdj A t) as [ia|] eqn:FA; unfold zDelaunayTri2DFindAdj in FA; apply find3 in FA.
  2:{ exfalso. destruct Da as (A' & k & GA' & K & _ & _ & _ & E). rewrite GA in GA'. injection GA' as <-. specialize (FA k K). rewrite E, Nat.eqb_refl in FA. discriminate. }
  destruct FA as (IA & AA). destruct (dadj A ia) as [s|] eqn:AA'; [|discriminate]. apply Nat.eqb_eq in AA. subst s.
  assert (Z : ar pts (dv T 0) (dv T 1) (dv T 2) <> 0). { pose proof (M_pos _ _ _ M _ _ _ _ _ (get_dart m t T 0 GT ltac:(lia))) as K. change (nx 0) with 1%nat in K. change (nxx 0) with 2%nat in K. lra. }
  destruct (circum2_ok (pt (dv T 0)) (pt (dv T 1)) (pt (dv T 2)) Z) as (c & CE & _). assert (CE' : zTri2DCircumcenter (dtri2 pts T) = Some c) by exact CE. rewrite CE'. cbv zeta. fold (nx i) (nxx i) (nx ia) (nxx ia). zvg. fold v.
  destruct (flip_edge _ _ _ _ _ _ _ _ _ M GT GA I IA AT AA') as (_ & Da2). fold u v in Da2. destruct (mesh_fun _ _ _ _ _ _ _ _ _ _ _ M Da Da2) as (_ & EN & _).
  set (n := dv A (nxx ia)) in *. clear n0 Da EN. rename Da2 into Da.
  assert (PW : powi pts u v p n = sq (pt n) c - sq (pt (dv T 0)) c). { unfold u, v. rewrite <- PT. apply (circum_test T c Z CE' n i I). }
  destruct (Rltb_reflect (dist2 (pt (dv T 0)) c) (dist2 (pt n) c)) as [TEST|TEST].
  { apply NOOP. intros f g b w' n' D D'. destruct (ONLY _ _ _ D) as (-> & -> & E). injection E as ->. destruct (mesh_fun _ _ _ _ _ _ _ _ _ _ _ M Da D') as (_ & -> & _). rewrite PW. assert (K : sq (pt (dv T 0)) c <= sq (pt n) c) by (apply dist2_le; lra). lra. }
  assert (BAD : powi pts u v p n <= 0). { rewrite PW. assert (K : sq (pt n) c <= sq (pt (dv T 0)) c) by (apply dist2_le; lra). lra. }
  assert (BAD' : pow (pt (dv T i)) (pt (dv T (nx i))) (pt (dv T (nxx i))) (pt (dv A (nxx ia))) <= 0) by (rewrite PT; exact BAD).
  destruct (flip_mesh _ _ _ _ _ _ _ _ _ M GT GA I IA AT AA' BAD') as (m' & T' & A' & F & ID & G1 & G2 & V1 & V2 & A1 & W1 & W2 & A2 & M' & KP & O).
  destruct (flip_signs _ _ _ _ _ _ _ _ _ M GT GA I IA AT AA' BAD') as (S1 & S2 & S3 & S4). destruct (flip_distinct _ _ _ _ _ _ _ _ _ M GT GA I IA AT AA' BAD') as (Nuv & Nup & Nvp & Nvn & Nun & Npn).
  assert (NTA : t <> a) by exact (flip_self _ _ _ _ _ _ _ _ _ M GT GA I IA AT AA').
  assert (DAJ : dart m a u n v (dadj A (nx ia)) /\ dart m a n v u (dadj A (nxx ia))) by exact (flip_aj _ _ _ _ _ _ _ _ _ M GT GA I IA AT AA'). destruct DAJ as (Daj & Dak).
  assert (DTJ : dart m t v p u (dadj T (nx i)) /\ dart m t p u v (dadj T (nxx i))) by (unfold u, v; rewrite <- PT; exact (flip_tj _ _ _ _ GT I)). destruct DTJ as (Dtj & Dtk).
  rewrite PT in *. fold u v n in S1, S2, S3, S4, Nuv, Nup, Nvp, Nvn, Nun, Npn, O, V1, W1.
  set (ps1 := match dadj A (nx ia) with None => ps | Some _ => (t, i) :: ps end). set (ps2 := match dadj A (nxx ia) with None => ps1 | Some _ => (a, nxx ia) :: ps1 end).
  exists m', ps2. split.
  { unfold flip in F. fold n in F. rewrite PT in F. destruct (zDelaunayTri2DBind (dput m t _) t i _) as [x1|]; [|discriminate]. destruct (zDelaunayTri2DBind x1 t (nx i) (Some a)) as [x2|]; [|discriminate].
    destruct (dget x2 a) as [Y|]; [|discriminate]. destruct (zDelaunayTri2DBind (dput x2 a _) a ia _) as [x3|]; [|discriminate]. rewrite F.
    unfold zDelaunayPair2DStackPush. rewrite G1, A1. fold ps1. rewrite G2, A2. reflexivity. }
  assert (PS : forall x j, List.In (x, j) ps2 -> (x = t /\ j = i) \/ (x = a /\ j = nxx ia) \/ List.In (x, j) ps).
  { intros x j. unfold ps2, ps1. destruct (dadj A (nxx ia)), (dadj A (nx ia)); cbn [List.In]; intuition (try congruence). }
  assert (PI : forall x, List.In x ps -> List.In x ps2). { intros x. unfold ps2, ps1. destruct (dadj A (nxx ia)), (dadj A (nx ia)); cbn [List.In]; tauto. }
  split; [|split; [exact ID|]].
  - destruct LG as [L1 L2 L3 L4 L5]. constructor.
    + exact M'.
    + intros x f g h e q D N1 N2 N3 Q NQ. apply O in D. destruct D as [(_ & [(-> & -> & -> & _)|[(-> & -> & -> & _)|(-> & -> & -> & _)]])|[(_ & [(-> & -> & -> & _)|[(-> & -> & -> & _)|(-> & -> & -> & _)]])|(_ & _ & e0 & D & _)]]; try congruence. exact (L2 _ _ _ _ _ _ D N1 N2 N3 Q NQ).
    + assert (WN : wit n).
      { assert (PA : powi pts v u n p <= 0). { assert (SW : powi pts u v p n * ar pts u v p = powi pts v u n p * ar pts v u n) by (apply pow_swap; assumption). destruct (Rle_lt_dec (powi pts v u n p) 0) as [L|L]; [exact L|exfalso].
          assert (0 < powi pts v u n p * ar pts v u n) by (apply Rmult_lt_0_compat; lra). assert (0 <= - powi pts u v p n * ar pts u v p) by (apply Rmult_le_pos; lra). lra. }
        destruct (shrink (cc (pt v) (pt u) (pt n)) (sq (pt v) (cc (pt v) (pt u) (pt n))) (pt n) (pt p)) as (o & k & K1 & K2 & K3).
        - apply pow_c. fold (ar pts v u n). lra.
        - exact PA.
        - intros E. pose proof (ar_swap pts u v n) as SW. unfold ar in *. rewrite E in S1. lra.
        - exists o, k. split; [exact K2|]. split; [exact K1|]. intros q Q. destruct (Nat.eq_dec q p) as [->|NQ]; [lra|]. apply K3. exact (L2 _ _ _ _ _ q Da Nvp Nup (not_eq_sym Npn) Q NQ). }
      assert (WU : wit u /\ wit v) by exact (L3 _ _ _ _ Dtk).
      intros x f g e D. apply O in D. destruct D as [(_ & [(E & -> & -> & _)|[(E & -> & -> & _)|(_ & -> & -> & _)]])|[(_ & [(E & -> & -> & _)|[(_ & -> & -> & _)|(E & -> & -> & _)]])|(_ & _ & e0 & D & _)]]; try congruence; try tauto. exact (L3 _ _ _ _ D).
    + intros x f g b w' e D D'. apply O in D. destruct D as [(-> & [(-> & -> & _ & E)|[(-> & -> & E & _)|(-> & -> & E & _)]])|[(-> & [(-> & -> & E & _)|[(-> & -> & E & _)|(-> & -> & _ & E)]])|(X1 & X2 & e0 & D & E)]]; try congruence.
      * left. exists i. unfold ps2, ps1. rewrite <- E. destruct (dadj A (nxx ia)); cbn [List.In]; tauto.
      * left. exists (nxx ia). unfold ps2, ps1. rewrite <- E. cbn [List.In]. tauto.
      * pose proof (M_pos _ _ _ M _ _ _ _ _ D) as P. destruct (ar_ne _ _ _ _ P) as (Nfg & Nfp & Ngp).
        assert (SELF : w' = p -> 0 <= powi pts f g p w') by (intros ->; unfold powi; rewrite pow_c; [lra|fold (ar pts f g p); lra]).
        destruct (isb (dadj A (nx ia)) x && Nat.eqb f n) eqn:B1; [|destruct (isb (dadj T (nx i)) x && Nat.eqb f p) eqn:B2].
        -- injection E as ->. apply andb_true_iff in B1. destruct B1 as (B1 & B3). apply isb_true in B1. apply Nat.eqb_eq in B3. subst f. rewrite B1 in Daj. destruct (M_adj _ _ _ M _ _ _ _ _ Daj) as (h' & K). destruct (mesh_fun _ _ _ _ _ _ _ _ _ _ _ M K D) as (-> & _).
           exfalso. replace (ar pts n u p) with (- ar pts u n p) in P by (rewrite ar_swap; lra). lra.
        -- apply andb_true_iff in B2. destruct B2 as (_ & B3). apply Nat.eqb_eq in B3. congruence.
        -- subst e0. destruct (M_adj _ _ _ M _ _ _ _ _ D) as (h' & K). destruct (Nat.eq_dec b t) as [->|NB1]; [|destruct (Nat.eq_dec b a) as [->|NB2]].
           ++ exfalso. destruct (dart_only _ _ _ _ _ _ _ _ _ _ Dt K) as [(-> & -> & ->)|[(-> & -> & ->)|(-> & -> & ->)]]; try congruence. destruct (mesh_fun _ _ _ _ _ _ _ _ _ _ _ M Dt K) as (_ & _ & E). congruence.
           ++ right. apply SELF. destruct (dart_only _ _ _ _ _ _ _ _ _ _ Da K) as [(-> & -> & ->)|[(-> & -> & ->)|(-> & -> & ->)]].
              ** destruct (mesh_fun _ _ _ _ _ _ _ _ _ _ _ M Da K) as (_ & _ & E). congruence.
              ** destruct (mesh_fun _ _ _ _ _ _ _ _ _ _ _ M Daj K) as (_ & _ & E). rewrite <- E in B1. cbn [isb] in B1. rewrite !Nat.eqb_refl in B1. discriminate.
              ** assert (D2 : dart m' a n v p (dadj A (nxx ia))) by (apply O; right; left; split; [reflexivity|]; right; right; auto). destruct (mesh_fun _ _ _ _ _ _ _ _ _ _ _ M' D2 D') as (_ & E & _). exact E.
           ++ assert (D2 : exists e2, dart m b g f w' e2). { apply O in D'. destruct D' as [(E & _)|[(E & _)|(_ & _ & e2 & D' & _)]]; [congruence|congruence|eauto]. }
              destruct D2 as (e2 & D2). destruct (L4 _ _ _ _ _ _ D D2) as [(j & [E|J])|J]; [congruence|left; eauto|right; exact J].
    + intros x j J. destruct (PS x j J) as [(-> & ->)|[(-> & ->)|J']].
      * split; [exact I|]. exists T'. auto.
      * split; [apply nxx_lt|]. exists A'. split; [exact G2|]. rewrite nxx_nxx by exact IA. exact W2.
      * destruct (L5 x j (or_intror J')) as (LJ & X & GX & PX). split; [exact LJ|]. destruct (Nat.eq_dec x t) as [->|NX1]; [|destruct (Nat.eq_dec x a) as [->|NX2]].
        -- rewrite GT in GX. injection GX as <-. exists T'. split; [exact G1|]. assert (EJ : nxx j = nxx i) by (apply (mesh_inj _ _ _ _ _ M GT); [apply nxx_lt|apply nxx_lt|congruence]). rewrite EJ. exact V2.
        -- exfalso. rewrite GA in GX. injection GX as <-. pose proof (get_dart m a A (nxx j) GA (nxx_lt j)) as K. rewrite PX in K. destruct (dart_only _ _ _ _ _ _ _ _ _ _ Da K) as [(E & _)|[(E & _)|(E & _)]]; congruence.
        -- destruct (KP x X NX1 NX2 GX) as (X' & GX' & VX'). exists X'. split; [exact GX'|]. rewrite VX'. exact PX.
  - assert (LT : (far m' < far m)%nat).
    { unfold far. rewrite ID. apply (filter_less _ _ _ a).
      - intros y Y K. apply away_true in K. destruct K as (Y' & GY & K). apply away_true. destruct (Nat.eq_dec y t) as [->|N1]; [|destruct (Nat.eq_dec y a) as [->|N2]].
        + exfalso. rewrite G1 in GY. injection GY as <-. apply (K (nxx i) (nxx_lt i)). exact V2.
        + exfalso. rewrite G2 in GY. injection GY as <-. apply (K (nx ia) (nx_lt ia)). exact W2.
        + apply dget_ids in Y. destruct Y as (X & GX). destruct (KP y X N1 N2 GX) as (X' & GX' & VX'). rewrite GY in GX'. injection GX' as <-. exists X. split; [exact GX|]. rewrite <- VX'. exact K.
      - apply dget_ids. eauto.
      - apply away_true. exists A. split; [exact GA|]. intros j J E. pose proof (get_dart m a A j GA J) as K. rewrite E in K. destruct (dart_only _ _ _ _ _ _ _ _ _ _ Da K) as [(E1 & _)|[(E1 & _)|(E1 & _)]]; congruence.
      - destruct (away m' a) eqn:K; [|reflexivity]. apply away_true in K. destruct K as (Y & GY & K). rewrite G2 in GY. injection GY as <-. exfalso. apply (K (nx ia) (nx_lt ia)). exact W2. }
    assert (LL : (length ps2 <= S (S (length ps)))%nat) by (unfold ps2, ps1; destruct (dadj A (nxx ia)), (dadj A (nx ia)); cbn [length]; lia). lia.
Qed.
Lemma legalize_all m ps : legalizing m ps -> exists m', (forall fuel, (2 * far m + length ps <= fuel)%nat -> zDelaunay2DLegalize pts fuel m ps = DDone m') /\ legalizing m' [] /\ ids m' = ids m.
Proof.
  cut (forall k m ps, (2 * far m + length ps <= k)%nat -> legalizing m ps -> exists m', (forall fuel, (k <= fuel)%nat -> zDelaunay2DLegalize pts fuel m ps = DDone m') /\ legalizing m' [] /\ ids m' = ids m).
  { intros H. intros L. exact (H _ m ps (le_n _) L). }
  clear m ps. induction k as [|k IH]; intros m ps K L; (destruct ps as [|(t, i) ps]; [exists m; split; [intros [|fuel] _; reflexivity|auto]|]); cbn [length] in K; [lia|].
  destruct (legalize_one m t i ps L) as (m1 & ps1 & E & L1 & ID & LT). destruct (IH m1 ps1 ltac:(lia) L1) as (m' & F & L' & ID'). exists m'. split; [|split; [exact L'|congruence]].
  intros [|fuel] HF; [lia|]. cbn [zDelaunay2DLegalize]. rewrite E. apply F. lia.
Qed.
End Legalize.

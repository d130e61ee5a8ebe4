(** Legal edges all around make all circles empty. *)
From Verif Require Import ModelDel SpecDel FactsDel FactsDel2 FactsDel3 FactsDel4.
From Coq Require Import List Lra Lia Bool.
Import ListNotations.
Open Scope R_scope.

Lemma argmin {A} (f : A -> R) l : l <> [] -> exists x, List.In x l /\ forall y, List.In y l -> f x <= f y.
Proof.
  induction l as [|a r IH]; [congruence|]. intros _. destruct r as [|b r].
  - exists a. cbn [List.In]. split; [auto|]. intros y [->|[]]. lra.
  - destruct IH as (x & X & L); [discriminate|]. destruct (Rle_lt_dec (f x) (f a)) as [H|H].
    + exists x. split; [right; exact X|]. intros y [->|Y]; [exact H|apply L, Y].
    + exists a. split; [left; reflexivity|]. intros y [->|Y]; [lra|]. specialize (L y Y). lra.
Qed.
Lemma filter_less {A} (f g : A -> bool) l x : (forall y, List.In y l -> f y = true -> g y = true) -> List.In x l -> g x = true -> f x = false -> (length (filter f l) < length (filter g l))%nat.
Proof.
  assert (W : forall l, (forall y, List.In y l -> f y = true -> g y = true) -> (length (filter f l) <= length (filter g l))%nat).
  { induction l0 as [|a r IH]; intros H; cbn [filter]; [lia|]. assert (K : (length (filter f r) <= length (filter g r))%nat) by (apply IH; intros y Y; apply H; right; exact Y).
    destruct (f a) eqn:E; [rewrite (H a (or_introl eq_refl) E); cbn [length]; lia|]. destruct (g a); cbn [length]; lia. }
  induction l as [|a r IH]; intros H; [intros []|]. intros [->|X] GX FX; cbn [filter].
  - rewrite GX, FX. cbn [length]. assert (length (filter f r) <= length (filter g r))%nat by (apply W; intros y Y; apply H; right; exact Y). lia.
  - assert (K : (length (filter f r) < length (filter g r))%nat) by (apply IH; [intros y Y; apply H; right; exact Y|assumption|assumption|assumption]).
    destruct (f a) eqn:E; [rewrite (H a (or_introl eq_refl) E); cbn [length]; lia|]. destruct (g a); cbn [length]; lia.
Qed.

Section Global.
Variable pts : list vec2.
Notation pt := (dpt pts).
Definition powi (u v w q : nat) : R := pow (pt u) (pt v) (pt w) (pt q).
Lemma powi_rot u v w q : ar pts u v w <> 0 -> powi u v w q = powi v w u q.
Proof. apply pow_rot. Qed.
Definition in_rim (q : nat) : Prop := 0 <= ar pts 0 1 q /\ 0 <= ar pts 1 2 q /\ 0 <= ar pts 2 0 q.
Definition legal (m : mem) : Prop := forall t u v w a w' n, dart m t u v w (Some a) -> dart m a v u w' n -> 0 <= powi u v w w'.
Definition empty_circles (m : mem) (V : list nat) : Prop := forall t u v w n q, dart m t u v w n -> List.In q V -> 0 <= powi u v w q.
Definition beyond_on (u v w : nat) (x : nat) : bool := if Rlt_dec (ar pts u v x) 0 then if Req_EM_T (powi u v w x) 0 then true else false else false.
Lemma beyond_on_true u v w x : beyond_on u v w x = true <-> ar pts u v x < 0 /\ powi u v w x = 0.
Proof. unfold beyond_on. destruct (Rlt_dec (ar pts u v x) 0), (Req_EM_T (powi u v w x) 0); split; intros; try discriminate; try tauto; try reflexivity. Qed.
Lemma global m V : mesh pts m V -> legal m -> (forall q, List.In q V -> in_rim q) -> empty_circles m V.
Proof.
  intros M LG RM t0 u0 v0 w0 n0 q D0 Q. destruct (Rle_lt_dec 0 (powi u0 v0 w0 q)) as [L0|L0]; [exact L0|exfalso].
  destruct (argmin (fun c => powi (dv (snd c) 0) (dv (snd c) 1) (dv (snd c) 2) q) m) as ((t1, T1) & IN1 & MIN).
  { intros ->. destruct D0 as (X & ? & G & _). discriminate. }
  cbn [snd] in MIN. set (mu := powi (dv T1 0) (dv T1 1) (dv T1 2) q) in *.
  assert (NZ : forall t u v w n, dart m t u v w n -> ar pts u v w <> 0) by (intros t u v w n D; apply M_pos with (1 := M) in D; lra).
  assert (LOW : forall t u v w n, dart m t u v w n -> mu <= powi u v w q).
  { intros t u v w n D. destruct D as (X & i & G & I & <- & <- & <- & _). pose proof (MIN (t, X) (dget_in _ _ _ G)) as K. cbn [snd] in K.
    pose proof (NZ _ _ _ _ _ (get_dart m t X 0 G ltac:(lia))) as Z0. pose proof (NZ _ _ _ _ _ (get_dart m t X 1 G ltac:(lia))) as Z1. cbv [nx nxx Nat.modulo Nat.divmod Nat.add snd fst Nat.sub] in Z0, Z1.
    destruct i as [|[|[|i]]]; [| | |exfalso; lia]; cbv [nx nxx Nat.modulo Nat.divmod Nat.add snd fst Nat.sub]; [exact K|rewrite <- powi_rot; assumption|]. rewrite <- powi_rot, <- powi_rot; [exact K|exact Z0|exact Z1]. }
  assert (MU : mu < 0) by (specialize (LOW _ _ _ _ _ D0); lra).
  assert (CAP : forall k t u v w n, dart m t u v w n -> powi u v w q = mu -> ar pts u v q < 0 -> (length (filter (beyond_on u v w) V) <= k)%nat -> False).
  { induction k as [|k IH]; intros t u v w n D E B C.
    all: destruct n as [a|]; [|apply (M_rim _ _ _ M) in D; destruct (RM q Q) as (R1 & R2 & R3); destruct D as [(-> & ->)|[(-> & ->)|(-> & ->)]]; lra].
    all: destruct (M_adj _ _ _ M _ _ _ _ _ D) as (w' & D'); pose proof (M_pos _ _ _ M _ _ _ _ _ D) as P; pose proof (M_pos _ _ _ M _ _ _ _ _ D') as P'.
    all: assert (E' : powi v u w' q = mu) by (apply Rle_antisym; [rewrite <- E; apply pow_beyond; [exact P|exact P'|exact (LG _ _ _ _ _ _ _ D D')|exact B]|exact (LOW _ _ _ _ _ D')]).
    all: assert (SAME : forall x, powi v u w' x = powi u v w x) by (intros x; apply (pow_same _ _ _ _ (pt q)); [exact P|exact P'|fold (ar pts u v q); lra|fold (powi v u w' q) (powi u v w q); congruence]).
    all: assert (W' : beyond_on u v w w' = true) by (apply beyond_on_true; split; [rewrite ar_swap; lra|rewrite <- SAME; apply pow_c; fold (ar pts v u w'); lra]).
    all: assert (Vw : List.In w' V) by (destruct (dart_rot _ _ _ _ _ _ D') as (n1 & D1); destruct (dart_rot _ _ _ _ _ _ D1) as (n2 & D2); exact (M_in _ _ _ M _ _ _ _ _ D2)).
    - assert (length (filter (fun _ : nat => false) V) < length (filter (beyond_on u v w) V))%nat by (apply (filter_less _ _ _ w'); auto; discriminate). lia.
    - assert (ST : forall f g h n', dart m a f g h n' -> powi f g h q = mu -> ar pts f g q < 0 -> f = w' \/ g = w' -> (forall x, powi f g h x = 0 -> ar pts f g x < 0 -> ar pts u v x < 0 /\ powi u v w x = 0) -> False).
      { intros f g h n' DF EF BF WF SUB. apply (IH a f g h n' DF EF BF). assert (length (filter (beyond_on f g h) V) < length (filter (beyond_on u v w) V))%nat; [|lia].
        apply (filter_less _ _ _ w'); [|exact Vw|exact W'|].
        - intros y Y K. apply beyond_on_true in K. apply beyond_on_true. apply SUB; tauto.
        - destruct (beyond_on f g h w') eqn:K; [|reflexivity]. apply beyond_on_true in K. destruct K as (K & _). unfold ar in K. destruct WF as [<-|<-]; rewrite ?area_self1, ?area_self2 in K; lra. }
      assert (PC : forall x, pow (pt v) (pt u) (pt w') x = pw (cc (pt v) (pt u) (pt w')) (sq (pt v) (cc (pt v) (pt u) (pt w'))) x) by reflexivity.
      assert (ZA := pow_a (pt v) (pt u) (pt w')). assert (ZB : pow (pt v) (pt u) (pt w') (pt u) = 0) by (apply pow_b; fold (ar pts v u w'); lra). assert (ZC : pow (pt v) (pt u) (pt w') (pt w') = 0) by (apply pow_c; fold (ar pts v u w'); lra).
      destruct (M_own _ _ _ M _ _ _ _ _ _ Q D') as [->|[->|[->|[K|[K|K]]]]].
      + unfold powi in E'. lra.
      + unfold powi in E'. lra.
      + unfold powi in E'. lra.
      + rewrite ar_swap in K. lra.
      + destruct (dart_rot _ _ _ _ _ _ D') as (n1 & D1). apply (ST _ _ _ _ D1); [rewrite <- powi_rot; [exact E'|lra]|exact K|right; reflexivity|].
        intros x X1 X2. rewrite <- powi_rot in X1 by lra. split; [|rewrite <- SAME; exact X1].
        destruct (cap_nested (cc (pt v) (pt u) (pt w')) (sq (pt v) (cc (pt v) (pt u) (pt w'))) (pt v) (pt u) (pt w') (pt x)) as (C1 & _); auto. rewrite ar_swap. unfold ar. lra.
      + destruct (dart_rot _ _ _ _ _ _ D') as (n1 & D1). destruct (dart_rot _ _ _ _ _ _ D1) as (n2 & D2). apply (ST _ _ _ _ D2).
        * rewrite <- powi_rot, <- powi_rot; [exact E'|lra|rewrite <- ar_rot; lra].
        * exact K.
        * left; reflexivity.
        * intros x X1 X2. rewrite <- powi_rot, <- powi_rot in X1; [|lra|rewrite <- ar_rot; lra]. split; [|rewrite <- SAME; exact X1].
          destruct (cap_nested (cc (pt v) (pt u) (pt w')) (sq (pt v) (cc (pt v) (pt u) (pt w'))) (pt u) (pt w') (pt v) (pt x)) as (_ & C2); auto; [rewrite <- area_rot; exact P'|]. rewrite ar_swap. unfold ar. lra. }
  pose proof (get_dart m t1 T1 0 (in_dget _ _ _ (M_ids _ _ _ M) IN1) ltac:(lia)) as D1. change (nx 0) with 1%nat in D1. change (nxx 0) with 2%nat in D1.
  pose proof (NZ _ _ _ _ _ D1) as Z. assert (Z' : ar pts (dv T1 1) (dv T1 2) (dv T1 0) <> 0) by (rewrite <- ar_rot; exact Z).
  destruct (dart_rot _ _ _ _ _ _ D1) as (n1 & D2). destruct (dart_rot _ _ _ _ _ _ D2) as (n2 & D3).
  destruct (M_own _ _ _ M _ _ _ _ _ _ Q D1) as [->|[->|[->|[K|[K|K]]]]].
  - unfold mu, powi in MU. rewrite pow_a in MU. lra.
  - unfold mu, powi in MU. rewrite pow_b in MU by exact Z. lra.
  - unfold mu, powi in MU. rewrite pow_c in MU by exact Z. lra.
  - exact (CAP _ _ _ _ _ _ D1 eq_refl K (le_n _)).
  - apply (CAP _ _ _ _ _ _ D2) with (2 := K) (3 := le_n _). rewrite <- powi_rot by exact Z. reflexivity.
  - apply (CAP _ _ _ _ _ _ D3) with (2 := K) (3 := le_n _). rewrite <- powi_rot, <- powi_rot by assumption. reflexivity.
Qed.
End Global.

(** The memory of triangles after a flip. *)
From Verif Require Import ModelDel SpecDel FactsDel FactsDel2.
From Coq Require Import List Lra Lia Bool.
Import ListNotations.
Open Scope R_scope.

(** the part of _zDelaunay2DLegalizeOne which rewrites the memory *)
Definition flip (m : mem) (T A : dtri) (t i a ia : nat) : option mem :=
  match zDelaunayTri2DBind (dput m t (DT (setf (dv T) (nx i) (dv A (nxx ia))) (dadj T))) t i (dadj A (nx ia)) with
  | None => None
  | Some m => match zDelaunayTri2DBind m t (nx i) (Some a) with
  | None => None
  | Some m => match dget m a with
  | None => None
  | Some A => match zDelaunayTri2DBind (dput m a (DT (setf (dv A) (nx ia) (dv T (nxx i))) (dadj A))) a ia (dadj T (nx i)) with
  | None => None
  | Some m => zDelaunayTri2DBind m a (nx ia) (Some t)
  end end end end.
Lemma setf_same {A} (f : nat -> A) i x : setf f i x i = x. Proof. unfold setf. rewrite Nat.eqb_refl. reflexivity. Qed.
Lemma setf_other {A} (f : nat -> A) i x j : j <> i -> setf f i x j = f j. Proof. unfold setf. intros N. destruct (Nat.eqb_spec j i); [contradiction|reflexivity]. Qed.
Lemma inj3_ne T i : (i < 3)%nat -> dv T i <> dv T (nx i) -> dv T i <> dv T (nxx i) -> dv T (nx i) <> dv T (nxx i) -> inj3 T.
Proof.
  intros I N1 N2 N3 x y X Y E. destruct (nx_cases i x I X) as [->|[->| ->]], (nx_cases i y I Y) as [->|[->| ->]]; congruence.
Qed.
Lemma flip_ok m t a T A i ia : let u := dv T i in let v := dv T (nx i) in let p := dv T (nxx i) in let n := dv A (nxx ia) in
  dget m t = Some T -> dget m a = Some A -> t <> a -> (i < 3)%nat -> (ia < 3)%nat -> dv A ia = v -> dv A (nx ia) = u -> NoDup [u; v; p; n] ->
  (forall b, dadj A (nx ia) = Some b -> b <> t /\ b <> a /\ exists B, dget m b = Some B /\ inj3 B) ->
  (forall c, dadj T (nx i) = Some c -> c <> t /\ c <> a /\ exists C, dget m c = Some C /\ inj3 C) ->
  exists m' T' A', flip m T A t i a ia = Some m' /\ ids m' = ids m /\ dget m' t = Some T' /\ dget m' a = Some A' /\
    dv T' i = u /\ dv T' (nx i) = n /\ dv T' (nxx i) = p /\ dadj T' i = dadj A (nx ia) /\ dadj T' (nx i) = Some a /\ dadj T' (nxx i) = dadj T (nxx i) /\
    dv A' ia = v /\ dv A' (nx ia) = p /\ dv A' (nxx ia) = n /\ dadj A' ia = dadj T (nx i) /\ dadj A' (nx ia) = Some t /\ dadj A' (nxx ia) = dadj A (nxx ia) /\
    forall x, x <> t -> x <> a -> (dget m x = None -> dget m' x = None) /\
      forall X, dget m x = Some X -> exists X', dget m' x = Some X' /\ dv X' = dv X /\
        forall q, (q < 3)%nat -> dadj X' q = if isb (dadj A (nx ia)) x && Nat.eqb (dv X q) n then Some t else if isb (dadj T (nx i)) x && Nat.eqb (dv X q) p then Some a else dadj X q.
Proof.
  intros u v p n GT GA NTA I IA EV EU ND HB HC.
  assert (NUV : u <> v /\ u <> p /\ u <> n /\ v <> p /\ v <> n /\ p <> n).
  { inversion ND as [|? ? N1 N1']; inversion N1' as [|? ? N2 N2']; inversion N2' as [|? ? N3 _]; subst. cbn [List.In] in *. repeat split; intros E; intuition congruence. }
  destruct NUV as (Nuv & Nup & Nun & Nvp & Nvn & Npn).
  destruct (nx_ne i I) as (I1 & I2 & I3). destruct (nx_ne ia IA) as (J1 & J2 & J3).
  pose proof (nx_lt i) as LI. pose proof (nxx_lt i) as LI2. pose proof (nx_lt ia) as LA. pose proof (nxx_lt ia) as LA2.
  unfold flip. fold n p. set (T1 := DT (setf (dv T) (nx i) n) (dadj T)). set (m0 := dput m t T1).
  assert (G0 : forall x, dget m0 x = if Nat.eqb x t then Some T1 else dget m x) by (intros x; exact (dget_dput _ _ _ _ _ GT)).
  assert (G0t : dget m0 t = Some T1) by (rewrite G0, Nat.eqb_refl; reflexivity).
  assert (G0x : forall x, x <> t -> dget m0 x = dget m x) by (intros x N; rewrite G0; destruct (Nat.eqb_spec x t); [contradiction|reflexivity]).
  destruct (bind_ok m0 t i T1 (dadj A (nx ia)) G0t I) as (m1 & B1 & D1 & G1 & R1).
  { intros b E. destruct (HB b E) as (X & _ & B & GB & IB). split; [exact X|]. exists B. rewrite G0x by exact X. auto. }
  rewrite B1. cbn [dv dadj T1] in G1, R1. rewrite setf_same in R1.
  assert (G1a : exists A1, dget m1 a = Some A1 /\ dv A1 = dv A /\ forall q, (q < 3)%nat -> dadj A1 q = dadj A q).
  { destruct (R1 a (not_eq_sym NTA)) as (_ & Q). destruct (Q A) as (A1 & Y & Z & W); [rewrite G0x; auto|]. exists A1. split; [exact Y|]. split; [exact Z|]. intros q L. rewrite (W q L).
    destruct (isb (dadj A (nx ia)) a) eqn:E; [|reflexivity]. apply isb_true in E. destruct (HB a E) as (_ & F & _). congruence. }
  destruct G1a as (A1 & G1a & VA1 & AA1).
  assert (INJA : inj3 A1). { apply (inj3_ne A1 ia IA); rewrite VA1, ?EV, ?EU; fold n; auto. }
  destruct (bind_ok m1 t (nx i) _ (Some a) G1 LI) as (m2 & B2 & D2 & G2 & R2).
  { intros b E. injection E as <-. split; [auto|]. exists A1. auto. }
  rewrite B2. cbn [dv dadj] in G2, R2. rewrite nx_nx in R2 by exact I. rewrite setf_other in R2 by congruence. fold p in R2.
  destruct (R2 a (not_eq_sym NTA)) as (_ & Q). destruct (Q A1 G1a) as (A2 & G2a & VA2 & AA2). clear Q.
  assert (NP : forall q, (q < 3)%nat -> Nat.eqb (dv A1 q) p = false).
  { intros q L. apply Nat.eqb_neq. rewrite VA1. destruct (nx_cases ia q IA L) as [->|[->| ->]]; rewrite ?EV, ?EU; fold n; congruence. }
  assert (AA2' : forall q, (q < 3)%nat -> dadj A2 q = dadj A q). { intros q L. rewrite (AA2 q L), (NP q L), andb_false_r. apply AA1, L. }
  rewrite VA1 in VA2. rewrite G2a. set (A3 := DT (setf (dv A2) (nx ia) p) (dadj A2)). set (m3 := dput m2 a A3).
  assert (G3 : forall x, dget m3 x = if Nat.eqb x a then Some A3 else dget m2 x) by (intros x; exact (dget_dput _ _ _ _ _ G2a)).
  assert (G3a : dget m3 a = Some A3) by (rewrite G3, Nat.eqb_refl; reflexivity).
  assert (G3x : forall x, x <> a -> dget m3 x = dget m2 x) by (intros x N; rewrite G3; destruct (Nat.eqb_spec x a); [contradiction|reflexivity]).
  assert (CH : forall x X, x <> t -> x <> a -> dget m x = Some X -> exists X', dget m3 x = Some X' /\ dv X' = dv X /\ forall q, (q < 3)%nat -> dadj X' q = if isb (dadj A (nx ia)) x && Nat.eqb (dv X q) n then Some t else dadj X q).
  { intros x X NT NA GX. destruct (R1 x NT) as (_ & Q). destruct (Q X) as (X1 & Y1 & Z1 & W1); [rewrite G0x; auto|]. destruct (R2 x NT) as (_ & Q2). destruct (Q2 X1 Y1) as (X2 & Y2 & Z2 & W2).
    exists X2. rewrite G3x by exact NA. split; [exact Y2|]. split; [congruence|]. intros q L. rewrite (W2 q L). cbn [isb]. destruct (Nat.eqb_spec a x); [congruence|]. cbn [andb]. exact (W1 q L). }
  destruct (bind_ok m3 a ia A3 (dadj T (nx i)) G3a IA) as (m4 & B4 & D4 & G4 & R4).
  { intros c E. destruct (HC c E) as (X & Y & C & GC & IC). split; [exact Y|]. destruct (CH c C X Y GC) as (C' & K1 & K2 & _). exists C'. split; [exact K1|]. intros q r Hq Hr. rewrite K2. apply IC; assumption. }
  rewrite B4. cbn [dv dadj A3] in G4, R4. rewrite setf_same in R4.
  assert (G3t : dget m3 t = Some (DT (setf (dv T) (nx i) n) (setf (setf (dadj T) i (dadj A (nx ia))) (nx i) (Some a)))) by (rewrite G3x; auto).
  destruct (R4 t NTA) as (_ & Q). destruct (Q _ G3t) as (T4 & G4t & VT4 & AT4). clear Q. cbn [dv dadj] in VT4, AT4.
  assert (INJT : inj3 T4). { apply (inj3_ne T4 i I); rewrite VT4, ?setf_same, ?setf_other by congruence; fold u v p; auto. }
  destruct (bind_ok m4 a (nx ia) _ (Some t) G4 LA) as (m5 & B5 & D5 & G5 & R5).
  { intros b E. injection E as <-. split; [exact NTA|]. exists T4. auto. }
  rewrite B5. cbn [dv dadj] in G5, R5. rewrite nx_nx in R5 by exact IA. rewrite setf_other in R5 by congruence. rewrite VA2 in R5. fold n in R5.
  destruct (R5 t NTA) as (_ & Q). destruct (Q T4 G4t) as (T5 & G5t & VT5 & AT5). clear Q.
  exists m5, T5. eexists. split; [reflexivity|]. split; [rewrite D5, D4; unfold m3; rewrite ids_dput, D2, D1; unfold m0; apply ids_dput|]. split; [exact G5t|]. split; [exact G5|].
  assert (TJ : isb (dadj T (nx i)) t = false). { destruct (isb (dadj T (nx i)) t) eqn:E; [|reflexivity]. apply isb_true in E. destruct (HC t E) as (F & _). congruence. }
  rewrite VT5, VT4. cbn [dv dadj]. rewrite !setf_same, !(setf_other _ (nx i)), !(setf_other _ (nx ia)) by congruence. rewrite setf_same, (setf_other _ ia) by congruence. fold u p. rewrite VA2, EV. fold n.
  split; [reflexivity|]. split; [reflexivity|]. split; [reflexivity|].
  assert (E0 : forall q, (q < 3)%nat -> dadj T5 q = if Nat.eqb q (nx i) then Some a else setf (dadj T) i (dadj A (nx ia)) q).
  { intros q L. rewrite (AT5 q L), (AT4 q L), VT4, TJ. cbn [isb andb]. rewrite Nat.eqb_refl. cbn [andb]. unfold setf at 2. destruct (Nat.eqb_spec q (nx i)) as [->|NQ].
    - rewrite setf_same, Nat.eqb_refl. reflexivity.
    - rewrite setf_other by exact NQ. destruct (nx_cases i q I L) as [->|[->| ->]]; [|congruence|]; fold u p; [destruct (Nat.eqb_spec u n); [congruence|reflexivity]|destruct (Nat.eqb_spec p n); [congruence|reflexivity]]. }
  split; [rewrite (E0 i I); destruct (Nat.eqb_spec i (nx i)); [congruence|]; apply setf_same|].
  split; [rewrite (E0 _ LI), Nat.eqb_refl; reflexivity|].
  split; [rewrite (E0 _ LI2); destruct (Nat.eqb_spec (nxx i) (nx i)); [congruence|]; apply setf_other; congruence|].
  split; [reflexivity|]. split; [reflexivity|]. split; [reflexivity|]. split; [reflexivity|]. split; [reflexivity|]. split; [apply AA2', LA2|].
  intros x NT NA. split.
  - intros Z. assert (Z1 : dget m1 x = None) by (apply (R1 x NT); rewrite G0x; auto). assert (Z2 : dget m2 x = None) by (apply (R2 x NT); exact Z1). assert (Z4 : dget m4 x = None) by (apply (R4 x NA); rewrite G3x; auto). apply (R5 x NA). exact Z4.
  - intros X GX. destruct (CH x X NT NA GX) as (X3 & Y3 & Z3 & W3). destruct (R4 x NA) as (_ & Q4). destruct (Q4 X3 Y3) as (X4 & Y4 & Z4 & W4). destruct (R5 x NA) as (_ & Q5). destruct (Q5 X4 Y4) as (X5 & Y5 & Z5 & W5).
    exists X5. split; [exact Y5|]. split; [congruence|]. intros q L. rewrite (W5 q L). cbn [isb]. destruct (Nat.eqb_spec t x); [congruence|]. cbn [andb]. rewrite (W4 q L), (W3 q L), Z3.
    destruct (isb (dadj A (nx ia)) x && Nat.eqb (dv X q) n) eqn:E; [|reflexivity]. apply andb_true_iff in E. destruct E as (_ & E). apply Nat.eqb_eq in E. rewrite E. destruct (Nat.eqb_spec n p); [congruence|rewrite andb_false_r; reflexivity].
Qed.
(** the edges after a flip *)
Lemma flip_darts m t a T A i ia : let u := dv T i in let v := dv T (nx i) in let p := dv T (nxx i) in let n := dv A (nxx ia) in
  dget m t = Some T -> dget m a = Some A -> t <> a -> (i < 3)%nat -> (ia < 3)%nat -> dv A ia = v -> dv A (nx ia) = u -> NoDup [u; v; p; n] ->
  (forall b, dadj A (nx ia) = Some b -> b <> t /\ b <> a /\ exists B, dget m b = Some B /\ inj3 B) ->
  (forall c, dadj T (nx i) = Some c -> c <> t /\ c <> a /\ exists C, dget m c = Some C /\ inj3 C) ->
  exists m' T' A', flip m T A t i a ia = Some m' /\ ids m' = ids m /\ dget m' t = Some T' /\ dget m' a = Some A' /\ dv T' i = u /\ dv T' (nxx i) = p /\ dadj T' i = dadj A (nx ia) /\ dv A' (nxx ia) = n /\ dv A' (nx ia) = p /\ dadj A' (nxx ia) = dadj A (nxx ia) /\
    (forall x X, x <> t -> x <> a -> dget m x = Some X -> exists X', dget m' x = Some X' /\ dv X' = dv X) /\
    forall x f g h e, dart m' x f g h e <->
      (x = t /\ (f = u /\ g = n /\ h = p /\ e = dadj A (nx ia) \/ f = n /\ g = p /\ h = u /\ e = Some a \/ f = p /\ g = u /\ h = n /\ e = dadj T (nxx i))) \/
      (x = a /\ (f = v /\ g = p /\ h = n /\ e = dadj T (nx i) \/ f = p /\ g = n /\ h = v /\ e = Some t \/ f = n /\ g = v /\ h = p /\ e = dadj A (nxx ia))) \/
      (x <> t /\ x <> a /\ exists e0, dart m x f g h e0 /\ e = if isb (dadj A (nx ia)) x && Nat.eqb f n then Some t else if isb (dadj T (nx i)) x && Nat.eqb f p then Some a else e0).
Proof.
  intros u v p n GT GA NTA I IA EV EU ND HB HC. destruct (flip_ok m t a T A i ia GT GA NTA I IA EV EU ND HB HC) as (m' & T' & A' & F & D & G1 & G2 & V1 & V2 & V3 & A1 & A2 & A3 & W1 & W2 & W3 & B1 & B2 & B3 & O).
  fold u v p n in V1, V2, V3, W1, W2, W3, O.
  exists m', T', A'. repeat (split; [assumption|]). split; [intros x X NT NA GX; destruct (O x NT NA) as (_ & O2); destruct (O2 X GX) as (X' & Y & Z & _); eauto|]. intros x f g h e. split.
  - intros (X' & q & G & Q & F1 & F2 & F3 & F4). destruct (Nat.eq_dec x t) as [->|NT]; [|destruct (Nat.eq_dec x a) as [->|NA]].
    + left. split; [reflexivity|]. rewrite G1 in G. injection G as <-. destruct (nx_cases i q I Q) as [->|[->| ->]]; rewrite ?nx_nx, ?nxx_nx, ?nx_nxx, ?nxx_nxx in * by assumption; [left|right; left|right; right]; repeat split; congruence.
    + right. left. split; [reflexivity|]. rewrite G2 in G. injection G as <-. destruct (nx_cases ia q IA Q) as [->|[->| ->]]; rewrite ?nx_nx, ?nxx_nx, ?nx_nxx, ?nxx_nxx in * by assumption; [left|right; left|right; right]; repeat split; congruence.
    + right. right. split; [exact NT|]. split; [exact NA|]. destruct (O x NT NA) as (O1 & O2). destruct (dget m x) as [X|] eqn:GX; [|rewrite O1 in G by reflexivity; discriminate].
      destruct (O2 X eq_refl) as (X'' & Y & Z & W). rewrite Y in G. injection G as <-. exists (dadj X q). rewrite Z in F1, F2, F3. split; [exists X, q; auto 8|]. rewrite <- F4, <- F1. apply W, Q.
  - intros [(-> & H)|[(-> & H)|(NT & NA & e0 & (X & q & G & Q & F1 & F2 & F3 & F4) & E)]].
    + destruct H as [(-> & -> & -> & ->)|[(-> & -> & -> & ->)|(-> & -> & -> & ->)]]; [exists T', i|exists T', (nx i)|exists T', (nxx i)]; rewrite ?nx_nx, ?nxx_nx, ?nx_nxx, ?nxx_nxx by assumption; repeat split; auto using nx_lt, nxx_lt.
    + destruct H as [(-> & -> & -> & ->)|[(-> & -> & -> & ->)|(-> & -> & -> & ->)]]; [exists A', ia|exists A', (nx ia)|exists A', (nxx ia)]; rewrite ?nx_nx, ?nxx_nx, ?nx_nxx, ?nxx_nxx by assumption; repeat split; auto using nx_lt, nxx_lt.
    + destruct (O x NT NA) as (_ & O2). destruct (O2 X G) as (X' & Y & Z & W). exists X', q. rewrite Z. repeat split; auto. rewrite (W q Q), F1, F4. symmetry. exact E.
Qed.

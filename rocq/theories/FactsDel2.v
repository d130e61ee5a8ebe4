(** The memory of triangles: effect of binding, flipping and subdividing. *)
From Verif Require Import ModelDel SpecDel FactsDel.
From Coq Require Import List Lra Lia Bool.
Import ListNotations.
Open Scope R_scope.

Definition ids (m : mem) : list nat := map fst m.
Lemma dget_in m t T : dget m t = Some T -> List.In (t, T) m.
Proof.
  induction m as [|(s, x) r IH]; cbn [dget]; [discriminate|]. destruct (Nat.eqb_spec s t) as [->|N]; intros H; [injection H as ->; left; reflexivity|right; apply IH, H].
Qed.
Lemma in_dget m t T : NoDup (ids m) -> List.In (t, T) m -> dget m t = Some T.
Proof.
  induction m as [|(s, x) r IH]; cbn [dget List.In ids map fst]; [tauto|]. intros N [E|H]; inversion N as [|? ? N1 N2]; subst.
  - injection E as -> ->. rewrite Nat.eqb_refl. reflexivity.
  - destruct (Nat.eqb_spec s t) as [->|_]; [exfalso; apply N1; apply (in_map fst) in H; exact H|apply IH; assumption].
Qed.
Lemma dget_ids m t : List.In t (ids m) <-> exists T, dget m t = Some T.
Proof.
  split.
  - induction m as [|(s, x) r IH]; cbn [dget List.In ids map fst]; [tauto|]. intros [->|H]; [rewrite Nat.eqb_refl; eauto|]. destruct (Nat.eqb_spec s t) as [->|_]; [eauto|auto].
  - intros (T & E). apply dget_in in E. apply (in_map fst) in E. exact E.
Qed.
Lemma ids_dput m t x : ids (dput m t x) = ids m.
Proof. induction m as [|(s, y) r IH]; cbn [dput ids map fst]; [reflexivity|]. destruct (Nat.eqb s t); cbn [map fst]; [reflexivity|]. fold (ids r) (ids (dput r t x)). rewrite IH. reflexivity. Qed.
Lemma dget_dput m t x s T : dget m t = Some T -> dget (dput m t x) s = if Nat.eqb s t then Some x else dget m s.
Proof.
  induction m as [|(u, y) r IH]; cbn [dget dput]; [discriminate|]. destruct (Nat.eqb_spec u t) as [->|N].
  - intros _. cbn [dget]. rewrite (Nat.eqb_sym s t). destruct (Nat.eqb t s); reflexivity.
  - intros H. cbn [dget]. rewrite (IH H). destruct (Nat.eqb_spec u s) as [->|M]; [|reflexivity]. destruct (Nat.eqb_spec s t); [contradiction|reflexivity].
Qed.

Definition nx (i : nat) : nat := Nat.modulo (i + 1) 3.
Definition nxx (i : nat) : nat := Nat.modulo (i + 2) 3.
Ltac three i H := destruct i as [|[|[|i]]]; [| | |exfalso; lia].
Lemma nx_lt i : (nx i < 3)%nat. Proof. apply Nat.mod_upper_bound. lia. Qed.
Lemma nxx_lt i : (nxx i < 3)%nat. Proof. apply Nat.mod_upper_bound. lia. Qed.
Lemma nx_nx i : (i < 3)%nat -> nx (nx i) = nxx i. Proof. intros H. three i H; reflexivity. Qed.
Lemma nx_nxx i : (i < 3)%nat -> nx (nxx i) = i. Proof. intros H. three i H; reflexivity. Qed.
Lemma nxx_nx i : (i < 3)%nat -> nxx (nx i) = i. Proof. intros H. three i H; reflexivity. Qed.
Lemma nxx_nxx i : (i < 3)%nat -> nxx (nxx i) = nx i. Proof. intros H. three i H; reflexivity. Qed.
Lemma nx_ne i : (i < 3)%nat -> nx i <> i /\ nxx i <> i /\ nx i <> nxx i. Proof. intros H. three i H; cbv; repeat split; discriminate. Qed.
Lemma nx_cases i q : (i < 3)%nat -> (q < 3)%nat -> q = i \/ q = nx i \/ q = nxx i.
Proof. intros H K. three i H; three q K; cbv; tauto. Qed.

(** an oriented edge [u v] of the triangle at [t], its third corner and the neighbour across *)
Definition dart (m : mem) (t u v w : nat) (n : option nat) : Prop :=
  exists T i, dget m t = Some T /\ (i < 3)%nat /\ dv T i = u /\ dv T (nx i) = v /\ dv T (nxx i) = w /\ dadj T i = n.
Lemma dart_rot m t u v w n : dart m t u v w n -> exists n', dart m t v w u n'.
Proof. intros (T & i & G & I & A & B & C & D). exists (dadj T (nx i)), T, (nx i). rewrite nx_nx, nxx_nx by assumption. repeat split; auto. apply nx_lt. Qed.
Lemma dart_only m t u v w n u' v' w' n' : dart m t u v w n -> dart m t u' v' w' n' -> u' = u /\ v' = v /\ w' = w \/ u' = v /\ v' = w /\ w' = u \/ u' = w /\ v' = u /\ w' = v.
Proof.
  intros (T & i & G & I & A & B & C & D) (T' & i' & G' & I' & A' & B' & C' & D'). rewrite G in G'. injection G' as <-.
  destruct (nx_cases i i' I I') as [->|[->| ->]]; rewrite ?nx_nx, ?nxx_nx, ?nx_nxx, ?nxx_nxx in * by assumption; [left|right; left|right; right]; repeat split; congruence.
Qed.
Lemma dart_fun m t u v w n v' w' n' : u <> v -> u <> w -> v <> w -> dart m t u v w n -> dart m t u v' w' n' -> v' = v /\ w' = w /\ n' = n.
Proof.
  intros N1 N2 N3 (T & i & G & I & A & B & C & D) (T' & i' & G' & I' & A' & B' & C' & D'). rewrite G in G'. injection G' as <-.
  destruct (nx_cases i i' I I') as [->|[->| ->]]; rewrite ?nx_nx, ?nxx_nx, ?nx_nxx, ?nxx_nxx in * by assumption; [repeat split; congruence|exfalso; congruence|exfalso; congruence].
Qed.
Lemma dart_get m t u v w n : dart m t u v w n -> exists T, dget m t = Some T.
Proof. intros (T & _ & G & _). eauto. Qed.
Lemma get_dart m t T i : dget m t = Some T -> (i < 3)%nat -> dart m t (dv T i) (dv T (nx i)) (dv T (nxx i)) (dadj T i).
Proof. intros G I. exists T, i. auto 8. Qed.
Definition inj3 (T : dtri) : Prop := forall i j, (i < 3)%nat -> (j < 3)%nat -> dv T i = dv T j -> i = j.

(** ** binding *)
Definition isb (a : option nat) (x : nat) : bool := match a with Some b => Nat.eqb b x | None => false end.
Lemma isb_true a x : isb a x = true <-> a = Some x.
Proof. destruct a as [b|]; cbn [isb]; [|split; discriminate]. destruct (Nat.eqb_spec b x); split; congruence. Qed.
(** the triangles other than [t] keep their corners; the edge from [pj] of [a] gets [t] as its neighbour *)
Definition rebound (m m' : mem) (t pj : nat) (a : option nat) : Prop :=
  forall x, x <> t -> (dget m x = None -> dget m' x = None) /\
    forall X, dget m x = Some X -> exists X', dget m' x = Some X' /\ dv X' = dv X /\ forall q, (q < 3)%nat -> dadj X' q = if isb a x && Nat.eqb (dv X q) pj then Some t else dadj X q.
Lemma find3 (f : nat -> bool) r : find f [0%nat; 1%nat; 2%nat] = r -> match r with Some k => (k < 3)%nat /\ f k = true | None => forall k, (k < 3)%nat -> f k = false end.
Proof.
  intros <-. destruct (find f _) as [k|] eqn:E.
  - apply find_some in E. destruct E as (I & F). split; [|exact F]. cbn [List.In] in I. lia.
  - intros k K. apply (find_none _ _ E). cbn [List.In]. lia.
Qed.
Lemma bind_ok m t i T a : dget m t = Some T -> (i < 3)%nat -> (forall b, a = Some b -> b <> t /\ exists B, dget m b = Some B /\ inj3 B) ->
  exists m', zDelaunayTri2DBind m t i a = Some m' /\ ids m' = ids m /\ dget m' t = Some (DT (dv T) (setf (dadj T) i a)) /\ rebound m m' t (dv T (nx i)) a.
Proof.
  intros G I H. unfold zDelaunayTri2DBind. rewrite G. fold (nx i).
  assert (S1 : forall x, dget (dput m t (DT (dv T) (setf (dadj T) i a))) x = if Nat.eqb x t then Some (DT (dv T) (setf (dadj T) i a)) else dget m x) by (intros x; exact (dget_dput _ _ _ _ _ G)).
  assert (KEEP : (forall b, a = Some b -> forall B, dget m b = Some B -> forall q, (q < 3)%nat -> dv B q <> dv T (nx i)) -> rebound m (dput m t (DT (dv T) (setf (dadj T) i a))) t (dv T (nx i)) a).
  { intros K x NX. rewrite S1. destruct (Nat.eqb_spec x t); [contradiction|]. split; [auto|]. intros X GX. exists X. split; [exact GX|]. split; [reflexivity|]. intros q Q.
    destruct (isb a x) eqn:EB; [|reflexivity]. apply isb_true in EB. specialize (K x EB X GX q Q). destruct (Nat.eqb_spec (dv X q) (dv T (nx i))); [contradiction|reflexivity]. }
  destruct a as [b|].
  - destruct (H b eq_refl) as (NB & B & GB & INJ). rewrite S1. destruct (Nat.eqb_spec b t); [contradiction|]. rewrite GB.
    destruct (find (fun ia => Nat.eqb (dv B ia) (dv T (nx i))) [0%nat; 1%nat; 2%nat]) as [k|] eqn:F; apply find3 in F.
    + destruct F as (K & F). apply Nat.eqb_eq in F. eexists. split; [reflexivity|]. split; [rewrite !ids_dput; reflexivity|].
      assert (S2 : forall x y, dget (dput (dput m t (DT (dv T) (setf (dadj T) i (Some b)))) b y) x = if Nat.eqb x b then Some y else dget (dput m t (DT (dv T) (setf (dadj T) i (Some b)))) x).
      { intros x y. apply (dget_dput _ _ _ _ B). rewrite S1. destruct (Nat.eqb_spec b t); [contradiction|exact GB]. }
      split; [rewrite S2; destruct (Nat.eqb_spec t b); [congruence|]; rewrite S1, Nat.eqb_refl; reflexivity|].
      intros x NX. rewrite S2. destruct (Nat.eqb_spec x b) as [->|NXB].
      * split; [congruence|]. intros X GX. rewrite GB in GX. injection GX as <-. eexists. split; [reflexivity|]. split; [reflexivity|]. intros q Q. cbn [dadj isb]. rewrite Nat.eqb_refl. cbn [andb]. unfold setf.
        destruct (Nat.eqb_spec q k) as [->|NQ]; [rewrite F, Nat.eqb_refl; reflexivity|]. destruct (Nat.eqb_spec (dv B q) (dv T (nx i))) as [E|_]; [|reflexivity]. exfalso. apply NQ, INJ; [exact Q|exact K|congruence].
      * rewrite S1. destruct (Nat.eqb_spec x t); [contradiction|]. split; [auto|]. intros X GX. exists X. split; [exact GX|]. split; [reflexivity|]. intros q Q. cbn [isb]. destruct (Nat.eqb_spec b x); [congruence|reflexivity].
    + eexists. split; [reflexivity|]. split; [apply ids_dput|]. split; [rewrite S1, Nat.eqb_refl; reflexivity|]. apply KEEP. intros b' E B' GB' q Q. injection E as <-. rewrite GB in GB'. injection GB' as <-. apply Nat.eqb_neq. exact (F q Q).
  - eexists. split; [reflexivity|]. split; [apply ids_dput|]. split; [rewrite S1, Nat.eqb_refl; reflexivity|]. apply KEEP. discriminate.
Qed.

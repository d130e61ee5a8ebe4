(** Planar hull: the closed loop *)
From Verif Require Import Base Spec SpecGeom SpecHull ModelVec ModelElem ModelHull FactsVec FactsAlg FactsElem FactsHull.
From Coq Require Import List Lia Lra ZArith Sorting.Sorted Sorting.Permutation.
Import ListNotations.
Open Scope R_scope.

(** ** what is assumed of the sorting routine of the list library *)
Definition sorts (sort : (vec3 -> vec3 -> Z) -> list vec3 -> list vec3) : Prop := forall cmp l,
  (forall a b c, List.In a l -> List.In b l -> List.In c l -> (cmp a b <= 0)%Z -> (cmp b c <= 0)%Z -> (cmp a c <= 0)%Z) ->
  (forall a b, List.In a l -> List.In b l -> (cmp a b <= 0)%Z \/ (cmp b a <= 0)%Z) ->
  Permutation (sort cmp l) l /\ StronglySorted (fun a b => (cmp a b <= 0)%Z) (sort cmp l).
Fixpoint insert (cmp : vec3 -> vec3 -> Z) (x : vec3) (l : list vec3) : list vec3 := match l with [] => [x] | y :: r => if Z.leb (cmp x y) 0 then x :: l else y :: insert cmp x r end.
Definition isort cmp (l : list vec3) : list vec3 := fold_right (insert cmp) [] l.
Lemma insert_perm cmp x l : Permutation (insert cmp x l) (x :: l).
Proof. induction l as [|y l IH]; cbn; [reflexivity|]. destruct (Z.leb (cmp x y) 0); [reflexivity|]. rewrite IH. apply perm_swap. Qed.
Lemma isort_perm cmp l : Permutation (isort cmp l) l.
Proof. induction l as [|y l IH]; cbn; [reflexivity|]. rewrite insert_perm. constructor. exact IH. Qed.
Lemma isort_sorts : sorts isort.
Proof.
  intros cmp l Tr To. split; [apply isort_perm|]. induction l as [|x l IH]; cbn; [constructor|].
  assert (S : StronglySorted (fun a b => (cmp a b <= 0)%Z) (isort cmp l)). { apply IH; intros; [apply (Tr a b c)|apply To]; try (right; assumption); assumption. }
  assert (Tr' : forall a b c, List.In a (x :: isort cmp l) -> List.In b (x :: isort cmp l) -> List.In c (x :: isort cmp l) -> (cmp a b <= 0)%Z -> (cmp b c <= 0)%Z -> (cmp a c <= 0)%Z).
  { intros a b c A B C. apply Tr; apply (Permutation_in _ (perm_skip x (isort_perm cmp l))); assumption. }
  assert (To' : forall a b, List.In a (x :: isort cmp l) -> List.In b (x :: isort cmp l) -> (cmp a b <= 0)%Z \/ (cmp b a <= 0)%Z).
  { intros a b A B. apply To; apply (Permutation_in _ (perm_skip x (isort_perm cmp l))); assumption. }
  clear IH Tr To. fold (isort cmp l). induction (isort cmp l) as [|y r IH]; cbn.
  - constructor; constructor.
  - apply StronglySorted_inv in S. destruct S as (S & F). destruct (Z.leb_spec (cmp x y) 0).
    + constructor; [constructor; assumption|]. rewrite Forall_forall in F |- *. intros z [<-|I]; [assumption|]. apply (Tr' x y z); [left; reflexivity|right; left; reflexivity|right; right; exact I|assumption|apply F, I].
    + assert (D : forall z, List.In z (x :: r) -> List.In z (x :: y :: r)) by (intros z [<-|I]; [left; reflexivity|right; right; exact I]).
      constructor; [apply IH; [exact S| |]; intros; [apply (Tr' a b c)|apply To']; try apply D; assumption|]. rewrite Forall_forall in F |- *. intros z I.
      apply (Permutation_in _ (insert_perm cmp x r)) in I. destruct I as [<-|I]; [|apply F, I]. destruct (To' x y); [left; reflexivity|right; left; reflexivity|lia|assumption].
Qed.
Lemma sorted_rev {A} (R : A -> A -> Prop) l : StronglySorted R l -> StronglySorted (fun a b => R b a) (rev l).
Proof.
  induction l as [|x l IH]; cbn; intros S; [constructor|]. apply StronglySorted_inv in S. destruct S as (S & F). specialize (IH S).
  assert (G : forall y, List.In y (rev l) -> R x y). { rewrite Forall_forall in F. intros y I. apply F, in_rev, I. }
  induction (rev l) as [|y r IHr]; cbn; [repeat constructor|]. apply StronglySorted_inv in IH. destruct IH as (S' & F'). constructor; [apply IHr; [exact S'|intros z I; apply G; right; exact I]|].
  rewrite Forall_forall in F' |- *. intros z I. apply in_app_or in I. destruct I as [I|[<-|[]]]; [apply F', I|apply G; left; reflexivity].
Qed.
Lemma sorted_impl {A} (R Q : A -> A -> Prop) l : (forall a b, List.In a l -> List.In b l -> R a b -> Q a b) -> StronglySorted R l -> StronglySorted Q l.
Proof.
  induction l as [|x l IH]; intros H S; [constructor|]. apply StronglySorted_inv in S. destruct S as (S & F). constructor; [apply IH; [intros; apply H; try (right; assumption); assumption|exact S]|].
  rewrite Forall_forall in F |- *. intros y I. apply H; [left; reflexivity|right; exact I|apply F, I].
Qed.

(** ** the frame *)
Lemma not_tiny_nz v : zVec3DIsTiny v = false -> v <> v3zero.
Proof. intros H ->. pose proof (tiny_self v3zero) as K. unfold zVec3DSub in K. cbn in K. unfold zVec3DIsTiny, zVec3DIsTol, v3zero in *. cbn [vx vy vz] in *. rewrite Rminus_0_r in K. congruence. Qed.
Lemma normalize_dir v : exists k, 0 < k /\ snd (zVec3DNormalizeDRC v) = vscale k v.
Proof.
  unfold zVec3DNormalizeDRC, zVec3DNormalize. destruct (zVec3DIsTiny v) eqn:T; cbn [snd].
  - exists 1. split; [lra|]. apply vec3_ext; spec_unfold; ring.
  - exists (1 / zVec3DNorm v). split; [|zvg; reflexivity]. apply Rdiv_lt_0_compat; [lra|]. zvg. pose proof (norm_nonneg v) as P. destruct P as [P|P]; [exact P|]. symmetry in P. apply norm_zero_iff in P. subst v.
    exfalso. exact (not_tiny_nz _ T eq_refl).
Qed.
Lemma base1_in t l s r : ch2d_base1 t l = Some (s, r) -> exists a, List.In a l /\ s = vsub a t /\ incl r l /\ zVec3DIsTiny s = false.
Proof.
  induction l as [|p l IH]; cbn; [discriminate|]. destruct (zVec3DIsTiny (zVec3DSub p t)) eqn:T; intros E.
  - destruct (IH E) as (a & I & S & C & Z). exists a. split; [right; exact I|]. split; [exact S|]. split; [|exact Z]. intros x J. right. apply C, J.
  - injection E as <- <-. exists p. split; [left; reflexivity|]. split; [reflexivity|]. split; [intros x J; right; exact J|exact T].
Qed.
Lemma base2_in t s l u n : ch2d_base2 t s l = Some (u, n) -> exists b, List.In b l /\ n = cross s (vsub b t) /\ zVec3DIsTiny n = false.
Proof.
  induction l as [|p l IH]; cbn; [discriminate|]. destruct (negb _ && negb _) eqn:T; intros E.
  - injection E as <- <-. exists p. split; [left; reflexivity|]. apply andb_prop in T. destruct T as (_ & T). apply Bool.negb_true_iff in T. split; [zvg; reflexivity|exact T].
  - destruct (IH E) as (b & I & S). exists b. split; [right; exact I|exact S].
Qed.
Lemma base_frame l s0 s1 : zConvexHull2DBase l = Some (s0, s1) -> exists t r a b n k0 k1, l = t :: r /\ List.In a l /\ List.In b l /\ vsub a t <> v3zero /\ n = cross (vsub a t) (vsub b t) /\ n <> v3zero /\
  0 < k0 /\ 0 < k1 /\ s0 = vscale k0 (vsub a t) /\ s1 = vscale k1 (cross n (vsub a t)).
Proof.
  unfold zConvexHull2DBase. destruct l as [|t r]; [discriminate|]. destruct (ch2d_base1 t r) as [[u r']|] eqn:E1; [|discriminate]. destruct (ch2d_base2 t u r') as [[w n]|] eqn:E2; [|discriminate].
  cbv zeta. intros E. destruct (base1_in _ _ _ _ E1) as (a & Ia & -> & C & T1). destruct (base2_in _ _ _ _ _ E2) as (b & Ib & -> & T2).
  destruct (normalize_dir (vsub a t)) as (k0 & P0 & N0). destruct (normalize_dir (zVec3DOuterProd (cross (vsub a t) (vsub b t)) (vsub a t))) as (k1 & P1 & N1). rewrite N0, N1 in E. injection E as <- <-.
  exists t, r, a, b, (cross (vsub a t) (vsub b t)), k0, k1. split; [reflexivity|]. split; [right; exact Ia|]. split; [right; apply C, Ib|]. split; [apply not_tiny_nz, T1|]. split; [reflexivity|]. split; [apply not_tiny_nz, T2|]. repeat split; assumption.
Qed.

(** The intersection of polyhedra: the hull of the dual points by the modelled zVec3DDataConvexHull. *)
From Verif Require Import Base Spec SpecGeom SpecHull SpecMesh SpecQH SpecIsec ModelPH ModelQH ModelIsec FactsVec FactsAlg FactsQH7 FactsQH9.
From Verif Require FactsDepth5 FactsDepth7.
From Verif Require Export FactsIsec FactsIsec2.
From Coq Require Import List Lra Lia.
Import ListNotations.
Open Scope R_scope.

Lemma surface_planes l vs fs : hull_surface l vs fs -> hull_planes l vs fs.
Proof.
  intros (ND & IN & IB & PR & _ & _ & FO & CV & HS).
  assert (C : forall x, convex_hull vs x <-> common (planes vs fs) x).
  { intros x. rewrite HS. unfold common, planes. split.
    - intros K n a H. apply in_map_iff in H. destruct H as ([[[i j] k] m] & E & F). injection E as <- <-. exact (K _ _ _ _ F).
    - intros K a b c n F. apply K. apply in_map_iff. exists (a, b, c, n). auto. }
  split; [|split; [|exact C]].
  - intros a b c n F. unfold indices_below in IB. rewrite Forall_forall in IB. destruct (IB (a, b, c) (in_map fst _ _ F)) as (A & B & D). destruct (FO _ _ _ _ F) as (U & D1 & D2 & _). repeat split; assumption.
  - intros x. rewrite <- C. split; [apply FactsDepth7.hull_hull; exact CV|apply FactsDepth7.hull_hull; intros v V; constructor; apply IN, V].
Qed.
Lemma quickhull_planes : forall sort l, general_position l -> (4 <= length l)%nat -> exists ch, quickhull sort (length l) l = Some ch /\ ph_hull l ch.
Proof.
  intros sort l G N. destruct (quickhull_correct sort (length l) l G N (le_n _)) as (ch & E & H). exists ch. split; [unfold quickhull; rewrite E; reflexivity|]. exact (surface_planes _ _ _ H).
Qed.
(** a tetrahedron *)
Lemma k_planes sort : exists ch, quickhull sort 4 [V3 1 1 1; V3 1 (-1) (-1); V3 (-1) 1 (-1); V3 (-1) (-1) 1] = Some ch /\ ph_hull [V3 1 1 1; V3 1 (-1) (-1); V3 (-1) 1 (-1); V3 (-1) (-1) 1] ch.
Proof.
  apply (quickhull_planes sort); [|cbn; lia]. apply (FactsDepth7.scattered_general _ FactsDepth5.kset FactsDepth7.k_scattered); [|auto].
  repeat constructor; cbn; unfold FactsDepth5.kA, FactsDepth5.kB, FactsDepth5.kC, FactsDepth5.kD; intros K; decompose [or] K; try contradiction; match goal with H : V3 _ _ _ = _ |- _ => injection H; intros; lra end.
Qed.

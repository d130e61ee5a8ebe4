(** Sets that overlap clearly are found to collide. *)
From Verif Require Import FactsVec FactsElem FactsGJK2 FactsGJK3 FactsGJK4 FactsDepth8 FactsDepth9.
From Verif Require Export SpecScatter ModelColPH.
From Coq Require Import List Lra Lia Bool Arith.
Import ListNotations.
Open Scope R_scope.

Lemma gjk_hit : forall fuel old l1 l2 M c1 c2 hit, sturdy l1 l2 -> (forall x, difference l1 l2 x -> norm x <= M) -> (exists x, convex_hull l1 x /\ convex_hull l2 x) ->
  (forall a b c q, difference l1 l2 a -> difference l1 l2 b -> difference l1 l2 c -> in_triangle a b c q -> sqrt zTOL + 6 * zTOL * M < norm q) ->
  zGJK fuel old l1 l2 = Some (c1, c2, hit) -> hit = true.
Proof.
  intros fuel old l1 l2 M c1 c2 hit ST B X TR E. unfold zGJK in E. destruct l1 as [|a l1]; [discriminate|]. destruct l2 as [|b l2]; [discriminate|]. change (zVec3DSub a b) with (vsub a b) in E.
  pose proof (loop_ok (a :: l1) (b :: l2) ltac:(discriminate) ltac:(discriminate) ST fuel simplexInit (vsub a b) None (or_introl (conj eq_refl eq_refl))) as L.
  destruct (gjkLoop fuel (a :: l1) (b :: l2) simplexInit (vsub a b) None) as [| |s v]; [discriminate|discriminate|].
  assert (N4 : (sx_n s <= 4)%nat). { destruct L as (g & I & _). rewrite (inv_n _ _ _ _ _ I), <- (inv_len _ _ _ _ _ I). clear. induction (sx_slot s) as [|x r IH]; cbn; [lia|]. destruct (sw_w x); cbn; lia. }
  destruct (Nat.eq_dec (sx_n s) 4) as [N|N].
  - destruct (gjkPair (sx_slot s) v3zero v3zero) as [[d1 d2]|]; [|discriminate]. injection E as _ _ <-. unfold gjkCheck. rewrite N. reflexivity.
  - exfalso. destruct (near_triangle _ _ s v M L ltac:(lia) B X) as (x & y & z & q & DX & DY & DZ & T & NQ). specialize (TR x y z q DX DY DZ T). lra.
Qed.
Lemma colph_hit : forall fuel old ph1 ph2 M p1 p2 hit, sturdy (pverts ph1) (pverts ph2) -> (forall x, difference (pverts ph1) (pverts ph2) x -> norm x <= M) -> (exists x, convex_hull (pverts ph1) x /\ convex_hull (pverts ph2) x) ->
  (forall a b c q, difference (pverts ph1) (pverts ph2) a -> difference (pverts ph1) (pverts ph2) b -> difference (pverts ph1) (pverts ph2) c -> in_triangle a b c q -> sqrt zTOL + 6 * zTOL * M < norm q) ->
  zColChkPH3D fuel old ph1 ph2 = Some (p1, p2, hit) -> hit = true.
Proof. intros fuel old ph1 ph2. exact (gjk_hit fuel old (pverts ph1) (pverts ph2)). Qed.
(** the small tetrahedron and the origin *)
Lemma hit_ex : sturdy jset [v3zero] /\ (forall x, difference jset [v3zero] x -> norm x <= 1/5) /\ (exists x, convex_hull jset x /\ convex_hull [v3zero] x) /\
  (forall a b c q, difference jset [v3zero] a -> difference jset [v3zero] b -> difference jset [v3zero] c -> in_triangle a b c q -> sqrt zTOL + 6 * zTOL * (1/5) < norm q) /\
  forall old, exists n c1 c2, forall fuel, (n <= fuel)%nat -> zGJK fuel old jset [v3zero] = Some (c1, c2, true).
Proof.
  assert (Z : forall a, vsub a v3zero = a) by (intros a; apply vec3_ext; unfold vsub, v3zero; cbn [vx vy vz]; ring).
  assert (D : forall x, difference jset [v3zero] x -> List.In x jset) by (intros x (a & b & A & [<-|[]] & ->); rewrite Z; exact A).
  pose proof (FactsDepth7.scattered_sturdy _ _ (FactsDepth7.scattered_point jset v3zero j_scattered)) as ST.
  assert (BD : forall x, difference jset [v3zero] x -> norm x <= 1/5) by (intros x X; pose proof (j_near x (D x X)) as K; unfold dist in K; rewrite Z in K; exact K).
  destruct j_deep as (H & T). assert (X : exists x, convex_hull jset x /\ convex_hull [v3zero] x) by (exists v3zero; split; [exact H|constructor; left; reflexivity]).
  assert (TR : forall a b c q, difference jset [v3zero] a -> difference jset [v3zero] b -> difference jset [v3zero] c -> in_triangle a b c q -> sqrt zTOL + 6 * zTOL * (1/5) < norm q) by (intros a b c q A B C Q; specialize (T a b c q (D a A) (D b B) (D c C) Q); unfold dist in T; rewrite Z in T; exact T).
  split; [exact ST|]. split; [exact BD|]. split; [exact X|]. split; [exact TR|]. intros old.
  destruct (gjk_ends old jset [v3zero] ltac:(discriminate) ltac:(discriminate) ST) as (n & c1 & c2 & hit & K).
  { right. intros x y DX DY. apply j_compact; auto. }
  exists n, c1, c2. intros fuel F. rewrite (K fuel F). pose proof (gjk_hit _ _ _ _ _ _ _ _ ST BD X TR (K fuel F)) as ->. reflexivity.
Qed.
Lemma colph_pair : forall fuel old ph1 ph2 c1 c2 hit, sturdy (pverts ph1) (pverts ph2) -> zColChkPH3D fuel old ph1 ph2 = Some (c1, c2, hit) -> exists q1 q2, nearest_pair (2 * zTOL) (pverts ph1) (pverts ph2) q1 q2 /\
  (forall b, within b (pverts ph1) -> dist c1 q1 <= 3 * zTOL * b) /\ (forall b, within b (pverts ph2) -> dist c2 q2 <= 3 * zTOL * b) /\ (clear_weights (pverts ph1) (pverts ph2) -> c1 = q1 /\ c2 = q2).
Proof. intros fuel old ph1 ph2 c1 c2 hit. exact (gjk_pair fuel old (pverts ph1) (pverts ph2) c1 c2 hit). Qed.

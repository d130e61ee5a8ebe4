(** Winding numbers and areas of closed loops in a plane with normal [n] *)
From Verif Require Export SpecHull.
From Coq Require Import List ZArith.
Import ListNotations.
Open Scope R_scope.

(** twice the signed area of the triangle [a], [b], [p] seen against [n] *)
Definition spin (n a b p : vec3) : R := dot n (cross (vsub b a) (vsub p a)).
(** sum over the sides of an open path and of a closed loop *)
Fixpoint path_sum {A} (add : A -> A -> A) (zero : A) (f : vec3 -> vec3 -> A) (l : list vec3) : A :=
  match l with a :: ((b :: _) as r) => add (f a b) (path_sum add zero f r) | _ => zero end.
Definition loop_sum {A} (add : A -> A -> A) (zero : A) (f : vec3 -> vec3 -> A) (l : list vec3) : A := path_sum add zero f (l ++ firstn 1 l).
(** how the side from [a] to [b] passes a ray from [p] along which the height [dot w] is constant: +1 upwards, -1 downwards *)
Definition hop (n w p a b : vec3) : Z :=
  if Rle_dec (dot w a) (dot w p) then if Rle_dec (dot w b) (dot w p) then 0%Z else if Rlt_dec 0 (spin n a b p) then 1%Z else 0%Z
  else if Rle_dec (dot w b) (dot w p) then if Rlt_dec (spin n a b p) 0 then (-1)%Z else 0%Z else 0%Z.
(** winding number of the loop around [p]; 1 inside and 0 outside of a counter-clockwise simple polygon *)
Definition winding (n w p : vec3) (l : list vec3) : Z := loop_sum Z.add 0%Z (hop n w p) l.
(** twice the signed area of a loop: of the triangles to any fixed point, here the origin *)
Definition loop_area (n : vec3) (l : list vec3) : R := loop_sum Rplus 0 (fun a b => dot n (cross a b)) l.
(** strictly inside *)
Definition in_open_triangle (a b c p : vec3) : Prop := exists s0 s1 s2, 0 < s0 /\ 0 < s1 /\ 0 < s2 /\ s0 + s1 + s2 = 1 /\ p = comb3 s0 s1 s2 a b c.
Definition corners := (vec3 * vec3 * vec3)%type.
Definition inner (t : corners) : vec3 -> Prop := let '(a, b, c) := t in in_open_triangle a b c.
Definition closure (t : corners) : vec3 -> Prop := let '(a, b, c) := t in in_triangle a b c.
(** an ear of a loop: the corner [v] between [u] and [x] turns to the left by more than
    the tolerance, and no other corner is within the tolerance of the triangle *)
Definition near_triangle (a b c q : vec3) : Prop := exists x, in_triangle a b c x /\ dist q x < zTOL.
Definition ear (n u v x : vec3) (others : list vec3) : Prop :=
  0 < spin n u v x /\ ~ below (cross (vsub v u) (vsub x v)) /\ forall q, List.In q others -> ~ near_triangle u v x q.
(** the same, except that other corners may be near a triangle of tiny area *)
Definition cuttable (n u v x : vec3) (others : list vec3) : Prop :=
  0 < spin n u v x /\ (~ below (cross (vsub v u) (vsub x v)) -> forall q, List.In q others -> ~ near_triangle u v x q).
(** cutting the corner [v] off a loop; the corner of the last position is not considered *)
Inductive tip_of : list vec3 -> vec3 -> vec3 -> vec3 -> list vec3 -> list vec3 -> Prop :=
| tip_first v x m u : tip_of (v :: x :: m ++ [u]) u v x m (x :: m ++ [u])
| tip_middle p u v x s : tip_of (p ++ u :: v :: x :: s) u v x (s ++ p) (p ++ u :: x :: s).
(** [reduces n l ts l']: cutting the corners [ts] in turn off [l] leaves [l'] *)
Inductive reduces (n : vec3) : list vec3 -> list corners -> list vec3 -> Prop :=
| reduces_refl l : reduces n l [] l
| reduces_cut l u v x o l1 ts l' : tip_of l u v x o l1 -> cuttable n u v x o -> reduces n l1 ts l' -> reduces n l ((u, v, x) :: ts) l'.
(** no corner, the last one left aside, is an ear *)
Definition earless (n : vec3) (l : list vec3) : Prop := (3 <= length l)%nat /\ forall u v x o l1, tip_of l u v x o l1 -> ~ ear n u v x o.
(** triangles that partition the region of the loop: all turn the same way, their areas
    add up; every point of the plane around which the loop winds is in one of them, a
    point around which it winds once is inside of one at most, and no other is inside of any *)
Definition tiled (o n : vec3) (l : list vec3) (ts : list corners) : Prop :=
  (forall a b c, List.In (a, b, c) ts -> 0 < spin n a b c) /\
  loop_area n l = fold_right (fun t s => (let '(a, b, c) := t in spin n a b c) + s) 0 ts /\
  forall w p, cross n w <> v3zero -> dot n (vsub p o) = 0 ->
    (winding n w p l <> 0%Z -> exists t, List.In t ts /\ closure t p) /\
    (winding n w p l = 0%Z -> forall t, List.In t ts -> ~ inner t p) /\
    ((winding n w p l <= 1)%Z -> forall r t s t' z, ts = r ++ t :: s ++ t' :: z -> ~ (inner t p /\ inner t' p)).
(** corners in convex position, in order, three of them never nearly in line *)
Definition convex_order (n : vec3) (l : list vec3) : Prop := forall i j k, (i < j < k)%nat -> (k < length l)%nat ->
  let a := nth i l v3zero in let b := nth j l v3zero in let c := nth k l v3zero in 2 * zTOL <= spin n a b c /\ zTOL * dist a c <= spin n a b c.
(** the first of the corners with the least x, and the normal of the turn at a corner *)
Definition leftmost (l : list vec3) (i : nat) : Prop := (i < length l)%nat /\
  (forall j, (j < i)%nat -> vx (nth i l v3zero) < vx (nth j l v3zero)) /\ (forall j, (i < j < length l)%nat -> vx (nth i l v3zero) <= vx (nth j l v3zero)).
Definition corner_normal (l : list vec3) (i : nat) : vec3 :=
  let n := length l in cross (vsub (nth ((i + 1) mod n) l v3zero) (nth i l v3zero)) (vsub (nth ((i + n - 1) mod n) l v3zero) (nth i l v3zero)).
(** ear clipping, the sense of turns being that at the leftmost corner, arrives at a
    loop without ears *)
Definition stuck (l : list vec3) : Prop := exists i ts l', leftmost l i /\ reduces (corner_normal l i) l ts l' /\ earless (corner_normal l i) l'.
(** inside of a convex loop of the plane through [o]: to the left of all sides *)
Definition side_of (l : list vec3) (i : nat) : vec3 := vsub (nth ((i + 1) mod length l) l v3zero) (nth i l v3zero).
Definition enclosed (o n : vec3) (l : list vec3) (q : vec3) : Prop := dot n (vsub q o) = 0 /\
  forall i, (i < length l)%nat -> 0 < dot n (cross (side_of l i) (vsub q (nth i l v3zero))).

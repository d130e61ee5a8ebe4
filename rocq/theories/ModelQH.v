(** src/zeo_bv3d_convexhull.c: convex hull of points in space by the quickhull method.
    Points are named by their positions in the data, facets by numbers handed out in the order of allocation.  The memory
    of facets is a map; a freed or never allocated facet is [None] and reading it is undefined.  Memory allocation
    succeeds.  Lists are given from tail to head: zListForEach visits them in this order, zListInsertHead adds at the end,
    zListAppend and zListAppendA join the second list to the head of the first one, zListAppendZ to the tail.
    Coordinates are real numbers, so that zVec3DIsNan never holds.  A result [None] stands for undefined behaviour or for
    an exhausted number of rounds [fuel]. *)
From Verif Require Export Base ModelVec ModelElem ModelPH ModelHull.
From Coq Require Import List Bool Arith.
Import ListNotations.
Open Scope R_scope.

(** arrays with three members *)
Definition arr {A} (a b c : A) (s : nat) : A := match s with O => a | 1%nat => b | _ => c end.
Definition upd {A} (f : nat -> A) (s : nat) (v : A) (i : nat) : A := if Nat.eqb i s then v else f i.
Definition nxt (s : nat) : nat := Nat.modulo (s + 1) 3.
Definition prv (s : nat) : nat := Nat.modulo (s + 2) 3.
(** 21-30 *)
Record qfacet := QF { qp : nat -> nat; qc : nat -> option nat; qm : nat -> bool; qop : list nat; qn : vec3; qdmax : R; qvis : bool; qchk : bool }.
Definition set_c (f : qfacet) s g := QF (qp f) (upd (qc f) s (Some g)) (qm f) (qop f) (qn f) (qdmax f) (qvis f) (qchk f).
Definition set_m (f : qfacet) s b := QF (qp f) (qc f) (upd (qm f) s b) (qop f) (qn f) (qdmax f) (qvis f) (qchk f).
Definition set_op (f : qfacet) l d := QF (qp f) (qc f) (qm f) l (qn f) d (qvis f) (qchk f).
Definition set_flags (f : qfacet) v c := QF (qp f) (qc f) (qm f) (qop f) (qn f) (qdmax f) v c.
(** memory of facets *)
Definition memory := nat -> option qfacet.
(** 33-36, with the memory, the number of the next facet and the discarding flags of the points *)
Record qhull := QH { q_mem : memory; q_new : nat; q_dis : nat -> bool; q_vl : list nat; q_fl : list nat }.

Definition obind {A B} (x : option A) (f : A -> option B) : option B := match x with Some a => f a | None => None end.
Local Notation "x <- e ; f" := (obind e (fun x => f)) (at level 61, e at next level, right associativity).

Section Quickhull.
(** coordinates of the points *)
Variable pt : nat -> vec3.

(** 48-67 *)
Definition zQHFacetCreate (p0 p1 p2 : nat) : qfacet :=
  QF (arr p0 p1 p2) (arr None None None) (arr false false false) []
    (snd (zVec3DNormalizeNC (zVec3DOuterProd (zVec3DSub (pt p1) (pt p0)) (zVec3DSub (pt p2) (pt p0))))) (- zTOL) false false.
(** 77-83 *)
Definition zQHFacetContig (f : qfacet) (f0 f1 f2 : nat) : qfacet := QF (qp f) (arr (Some f0) (Some f1) (Some f2)) (qm f) (qop f) (qn f) (qdmax f) (qvis f) (qchk f).
(** 85-102 *)
Definition zQHFacetOn (f : qfacet) (v : vec3) : bool := zTri3DPointIsInside (T3 (pt (qp f 0)) (pt (qp f 1)) (pt (qp f 2)) (qn f)) v zTOL.

(** 118-176: 131-139 the first two vertices; [None]: all points at one place *)
Fixpoint simplex2 (v0 : nat) (pl : list nat) : option (nat * list nat) :=
  match pl with
  | [] => None
  | v1 :: r => if zVec3DIsTiny (zVec3DSub (pt v1) (pt v0)) then simplex2 v0 r else Some (v1, r)
  end.
(** 140-157: third vertex and the normal vector, with the points left and the reserve *)
Fixpoint simplex3 (v0 : nat) (d0 : vec3) (pl reserve : list nat) : option (nat * vec3 * list nat * list nat) :=
  match pl with
  | [] => None
  | v2 :: r =>
      let e1 := zVec3DSub (pt v2) (pt v0) in
      if zVec3DIsTiny e1 then simplex3 v0 d0 r (v2 :: reserve)
      else
        let n := zVec3DOuterProd d0 (snd (zVec3DNormalize e1 v3zero)) in
        if zVec3DIsTiny n then simplex3 v0 d0 r (v2 :: reserve) else Some (v2, snd (zVec3DNormalizeDRC n), r, reserve)
  end.
(** 158-171: fourth vertex and its height *)
Fixpoint simplex4 (v0 : nat) (n : vec3) (pl reserve : list nat) : option (nat * R * list nat * list nat) :=
  match pl with
  | [] => None
  | v3 :: r =>
      let h := zVec3DInnerProd (zVec3DSub (pt v3) (pt v0)) n in
      if zIsTiny h then simplex4 v0 n r (v3 :: reserve) else Some (v3, h, r, reserve)
  end.
(** the dimension found, or four vertices with the points left *)
Inductive simplex := Flat (dim : nat) | Solid (v0 v1 v2 v3 : nat) (pl : list nat).
Definition zQHSimplexVert (pl : list nat) : simplex :=
  match pl with
  | [] => Flat 0
  | v0 :: pl =>
      match simplex2 v0 pl with
      | None => Flat 1
      | Some (v1, pl) =>
          match simplex3 v0 (snd (zVec3DNormalize (zVec3DSub (pt v1) (pt v0)) v3zero)) pl [] with
          | None => Flat 2
          | Some (v2, n, pl, reserve) =>
              match simplex4 v0 n pl reserve with
              | None => Flat 3
              | Some (v3, h, pl, reserve) => if Rltb 0 h then Solid v1 v0 v2 v3 (pl ++ reserve) else Solid v0 v1 v2 v3 (pl ++ reserve)
              end
          end
      end
  end.
(** 178-203 *)
Definition zQHSimplex (v0 v1 v2 v3 : nat) : qhull :=
  QH (fun i => match i with
      | 0 => Some (zQHFacetContig (zQHFacetCreate v0 v1 v2) 2 3 1)
      | 1 => Some (zQHFacetContig (zQHFacetCreate v0 v3 v1) 2 0 3)
      | 2 => Some (zQHFacetContig (zQHFacetCreate v1 v3 v2) 3 0 1)
      | 3 => Some (zQHFacetContig (zQHFacetCreate v2 v3 v0) 1 0 2)
      | _ => None
      end) 4 (fun _ => false) [v0; v1; v2; v3] [0; 1; 2; 3]%nat.

(** 205-216: -1, 0 and 1, with the vector e *)
Inductive place := Beneath | On | Beyond.
Definition zQHFacetTestBeneathBeyond (f : qfacet) (p : nat) : place * vec3 :=
  let e := zVec3DSub (pt p) (pt (qp f 0)) in
  (if zVec3DIsTiny e then On
   else
     let l := zVec3DInnerProd (qn f) e in
     if Rltb l (- zTOL) then Beneath else if Rltb zTOL l then Beyond
     else if zQHFacetOn f (pt p) then On else Beyond, e).
(** 228-245: one facet *)
Fixpoint assign_facet (f : qfacet) (pl : list nat) : qfacet * list nat :=
  match pl with
  | [] => (f, [])
  | p :: r =>
      match zQHFacetTestBeneathBeyond f p with
      | (Beneath, _) => let (f, r) := assign_facet f r in (f, p :: r)
      | (On, _) => assign_facet f r
      | (Beyond, e) =>
          let d := zVec3DInnerProd (qn f) e in
          assign_facet (if Rltb (qdmax f) d then set_op f (qop f ++ [p]) d else set_op f (p :: qop f) (qdmax f)) r
      end
  end.
(** 218-248; the points left over are discarded *)
Fixpoint zQHFacetAssign (m : memory) (fl pl : list nat) : option memory :=
  match fl with
  | [] => Some m
  | i :: r => f <- m i; let (f, pl) := assign_facet f pl in zQHFacetAssign (upd m i (Some f)) r pl
  end.

(** 250-258; the depth of the recursion is limited by [fuel] *)
Fixpoint zQHMerge (fuel : nat) (m : memory) (i : nat) : option memory :=
  match fuel with
  | O => None
  | S k =>
      let visit s m := f <- m i; if qm f s then j <- qc f s; g <- m j; if qchk g then Some m else zQHMerge k m j else Some m in
      f <- m i;
      m <- visit 0%nat (upd m i (Some (set_flags f true true)));
      m <- visit 1%nat m;
      visit 2%nat m
  end.
(** 260-269 *)
Definition zQHFacetResetFlag (m : memory) (fl : list nat) : option memory :=
  fold_left (fun m i => m <- m; f <- m i; Some (upd m i (Some (set_flags f false false)))) fl (Some m).
(** 280-287: whether no facet has the point on itself *)
Fixpoint mark_visible (fuel : nat) (p : nat) (m : memory) (fl : list nat) : option (bool * memory) :=
  match fl with
  | [] => Some (true, m)
  | i :: r =>
      f <- m i;
      match fst (zQHFacetTestBeneathBeyond f p) with
      | On => Some (false, m)
      | Beyond => if qchk f then mark_visible fuel p m r else m <- zQHMerge fuel m i; mark_visible fuel p m r
      | Beneath => mark_visible fuel p m r
      end
  end.
(** 288-296: the facets kept, the visible set, the points to be reassigned, the discarding flags *)
Fixpoint purge_visible (m : memory) (d : nat -> bool) (fl keep vs pl : list nat) : option (memory * (nat -> bool) * list nat * list nat * list nat) :=
  match fl with
  | [] => Some (m, d, keep, vs, pl)
  | i :: r =>
      f <- m i;
      if qvis f then
        purge_visible (upd m i (Some (set_op f [] (qdmax f)))) (upd (upd (upd d (qp f 0) true) (qp f 1) true) (qp f 2) true) r keep (i :: vs) (qop f ++ pl)
      else purge_visible m d r (keep ++ [i]) vs pl
  end.
(** 271-298: the state, the visible set and the points to be reassigned, or nothing (value false) *)
Definition zQHVisibleSet (q : qhull) (p : nat) : option (qhull * option (list nat * list nat)) :=
  r <- mark_visible (S (q_new q)) p (q_mem q) (q_fl q);
  match r with
  | (false, m) => m <- zQHFacetResetFlag m (q_fl q); Some (QH m (q_new q) (q_dis q) (q_vl q) (q_fl q), None)
  | (true, m) => r <- purge_visible m (q_dis q) (q_fl q) [] [] []; let '(m, d, keep, vs, pl) := r in Some (QH m (q_new q) d (q_vl q) keep, Some (vs, pl))
  end.

(** 300-308; [i]: the facet; the inner [None] is -1 *)
Definition same_facet (c : option nat) (i : nat) : bool := match c with Some j => Nat.eqb j i | None => false end.
Definition zQHFacetContigID (m : memory) (i s : nat) : option (option nat) :=
  f <- m i; j <- qc f s; g <- m j;
  Some (if same_facet (qc g 0) i then Some 0%nat else if same_facet (qc g 1) i then Some 1%nat else if same_facet (qc g 2) i then Some 2%nat else None).
(** 318-329 *)
Definition merge_flag (f1 f2 : qfacet) (s1 : nat) : bool :=
  if zVec3DIsTiny (zVec3DSub (qn f1) (qn f2)) then true
  else
    let d := zVec3DOuterProd (qn f1) (qn f2) in
    if zVec3DIsTiny d then true
    else Rltb (zVec3DInnerProd (zVec3DSub (pt (qp f1 (prv s1))) (pt (qp f1 (nxt s1)))) d) 0.
(** 310-331 *)
Definition zQHFacetBind (m : memory) (i1 s1 i2 s2 : nat) : option memory :=
  f1 <- m i1; let m := upd m i1 (Some (set_c f1 s1 i2)) in
  f2 <- m i2; let m := upd m i2 (Some (set_c f2 s2 i1)) in
  f1 <- m i1; f2 <- m i2;
  let b := merge_flag f1 f2 s1 in
  let m := upd m i2 (Some (set_m f2 s2 b)) in
  f1 <- m i1; Some (upd m i1 (Some (set_m f1 s1 b))).
(** memory, next number, discarding flags and the cone under construction *)
Record horizon := HZ { h_mem : memory; h_new : nat; h_dis : nat -> bool; h_cone : list nat }.
(** 333-351: false for the null pointer; the new facet has the number h_new of the state before *)
Definition zQHHorizonNewFacet (h : horizon) (p i s : nat) : option (bool * horizon) :=
  f <- h_mem h i;
  let d := upd (upd (h_dis h) (qp f (prv s)) false) (qp f (nxt s)) false in
  let k := h_new h in
  let m := upd (h_mem h) k (Some (zQHFacetCreate p (qp f (nxt s)) (qp f (prv s)))) in
  t <- zQHFacetContigID m i s;
  match t with
  | None => Some (false, HZ (upd m k None) (S k) d (h_cone h))
  | Some t => j <- qc f s; m <- zQHFacetBind m k 0 j t; Some (true, HZ m (S k) d (h_cone h))
  end.
(** 363-365 *)
Fixpoint first_ridge (m : memory) (vs : list nat) : option (option (nat * nat)) :=
  match vs with
  | [] => Some None
  | i :: r =>
      f <- m i; c0 <- qc f 0; g0 <- m c0;
      if negb (qvis g0) then Some (Some (i, 0%nat))
      else c1 <- qc f 1; g1 <- m c1;
        if negb (qvis g1) then Some (Some (i, 1%nat))
        else c2 <- qc f 2; g2 <- m c2;
          if negb (qvis g2) then Some (Some (i, 2%nat)) else first_ridge m r
  end.
(** 378-400; [k] rounds are allowed, [i] and [s] are the facet and the side at hand *)
Fixpoint horizon_walk (k : nat) (p p0 : nat) (h : horizon) (i s : nat) : option (bool * horizon) :=
  match k with
  | O => Some (false, h)
  | S k =>
      f <- h_mem h i; j <- qc f s; g <- h_mem h j;
      r <- (if qvis g then
              t <- zQHFacetContigID (h_mem h) i s;
              match t with None => Some (false, h, i, s) | Some t => Some (true, h, j, nxt t) end
            else
              a <- zQHHorizonNewFacet h p i s;
              match a with
              | (false, h) => Some (false, h, i, s)
              | (true, h') =>
                  m <- zQHFacetBind (h_mem h') (h_new h) 2 (last (h_cone h') 0%nat) 1;
                  Some (true, HZ m (h_new h') (h_dis h') (h_cone h' ++ [h_new h]), i, nxt s)
              end);
      match r with
      | (false, h, _, _) => Some (false, h)
      | (true, h, i, s) =>
          f <- h_mem h i;
          if Nat.eqb (qp f (nxt s)) p0 then
            m <- zQHFacetBind (h_mem h) (last (h_cone h) 0%nat) 1 (hd 0%nat (h_cone h)) 2; Some (true, HZ m (h_new h) (h_dis h) (h_cone h))
          else horizon_walk k p p0 h i s
      end
  end.
(** 353-402 *)
Definition zQHHorizon (m : memory) (new : nat) (d : nat -> bool) (vs : list nat) (p : nat) : option (bool * horizon) :=
  r <- first_ridge m vs;
  match r with
  | None => Some (false, HZ m new d [])
  | Some (i, s) =>
      a <- zQHHorizonNewFacet (HZ m new d []) p i s;
      match a with
      | (false, h) => Some (false, h)
      | (true, h) => f <- h_mem h i; horizon_walk (S (3 * length vs)) p (qp f (nxt s)) (HZ (h_mem h) (h_new h) (h_dis h) [new]) i (nxt s)
      end
  end.
(** 104-114 *)
Definition zQHFacetListDestroy (m : memory) (fl : list nat) : memory := fold_left (fun m i => upd m i None) fl m.
(** 404-430: [i] the facet, whose outside set is not empty *)
Definition zQHInc (q : qhull) (i : nat) : option (bool * qhull) :=
  f <- q_mem q i;
  match rev (qop f) with
  | [] => None
  | p :: op =>
      r <- zQHVisibleSet (QH (upd (q_mem q) i (Some (set_op f (rev op) (qdmax f)))) (q_new q) (q_dis q) (q_vl q) (q_fl q)) p;
      match r with
      | (q, None) => Some (true, q)
      | (q, Some (vs, pl)) =>
          let vl := q_vl q ++ [p] in
          a <- zQHHorizon (q_mem q) (q_new q) (q_dis q) vs p;
          match a with
          | (false, h) => Some (false, QH (zQHFacetListDestroy (zQHFacetListDestroy (h_mem h) (h_cone h)) vs) (h_new h) (h_dis h) vl (q_fl q))
          | (true, h) =>
              m <- zQHFacetAssign (h_mem h) (h_cone h) pl;
              Some (true, QH (zQHFacetListDestroy m vs) (h_new h) (h_dis h) vl (q_fl q ++ h_cone h))
          end
      end
  end.
(** 460-461, 463: the first facet from the tail with outside points *)
Fixpoint first_open (m : memory) (fl : list nat) : option (option nat) :=
  match fl with
  | [] => Some None
  | i :: r => f <- m i; match qop f with [] => first_open m r | _ => Some (Some i) end
  end.
(** 459-464 *)
Fixpoint inc_loop (fuel : nat) (q : qhull) : option qhull :=
  match fuel with
  | O => None
  | S k =>
      r <- first_open (q_mem q) (q_fl q);
      match r with
      | None => Some q
      | Some i => a <- zQHInc q i; match a with (true, q) => inc_loop k q | (false, q) => Some q end
      end
  end.
(** 432-445 *)
Definition zQHDiscard (q : qhull) : qhull := QH (q_mem q) (q_new q) (q_dis q) (filter (fun v => negb (q_dis q v)) (q_vl q)) (q_fl q).
(** 447-467: the dimension, or the hull *)
Definition zQHCreate (fuel : nat) (pl : list nat) : option (nat + qhull) :=
  match zQHSimplexVert pl with
  | Flat dim => Some (inl dim)
  | Solid v0 v1 v2 v3 pl =>
      let q := zQHSimplex v0 v1 v2 v3 in
      m <- zQHFacetAssign (q_mem q) (q_fl q) pl;
      q <- inc_loop fuel (QH m (q_new q) (q_dis q) (q_vl q) (q_fl q));
      Some (inr (zQHDiscard q))
  end.
(** position of a vertex in the vertex list *)
Fixpoint index_of (v : nat) (l : list nat) : option nat :=
  match l with [] => None | a :: r => if Nat.eqb a v then Some 0%nat else i <- index_of v r; Some (S i) end.
(** 476-495; a facet with a freed vertex is undefined *)
Definition zQH2PH3D (q : qhull) : option ph3 :=
  fs <- mapM (fun i => f <- q_mem q i; a <- index_of (qp f 0) (q_vl q); b <- index_of (qp f 1) (q_vl q); c <- index_of (qp f 2) (q_vl q); Some (FC a b c (qn f))) (q_fl q);
  Some (PH (map pt (q_vl q)) fs).
End Quickhull.

(** 520-525 with zeo_bv2d_convexhull.c 78-113: faces of the planar hull get normals by zTri3DCreate *)
Definition planar_hull sort (data : list vec3) : option (option ph3) :=
  match zVec3DDataConvexHull2DPH3D sort data with
  | None => Some None
  | Some (vs, fs) => fs <- mapM (fun t : nat * nat * nat => let '(a, b, c) := t in faceCalcNorm vs (FC a b c v3zero)) fs; Some (Some (PH vs fs))
  end.
(** 497-530: Some None is the null pointer *)
Definition zVec3DDataConvexHull sort (fuel : nat) (data : list vec3) : option (option ph3) :=
  let pt i := nth i data v3zero in
  r <- zQHCreate pt fuel (seq 0 (length data));
  match r with
  | inl dim => if Nat.eqb dim 3 then planar_hull sort data else Some None
  | inr q => ph <- zQH2PH3D pt q; Some (Some ph)
  end.

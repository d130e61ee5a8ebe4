(** Rational spline curves and surfaces: src/zeo_nurbs3d.c, src/zeo_nurbs3d_shape.c,
    include/zeo/zeo_nurbs3d.h.
    The knot vectors, the segment search and the basis functions belong to the ZM
    library (zBSplineParam), which is not part of the repository.  Its basis functions
    are the Cox-de Boor recursion, its first derivative the usual difference of the
    basis functions of the next lower degree, a ratio with a zero denominator counting
    as zero; the segment search is a parameter [seg] of the model (order, knots and
    parameter to segment number).
    The outcome of an evaluation: [None] for an access outside of the net of control
    points, [Some None] for a null pointer. *)
From Verif Require Export SpecNurbs ModelVec ModelMat ModelFrame ModelBox ModelShape ModelMesh.
Open Scope R_scope.

Definition bs_at (p : bspl) (i : nat) : R := nth i (bs_knot p) 0.
(** ZM: zBSplineParamKnotS, zBSplineParamKnotE, zBSplineParamKnotSlice *)
Definition zBSplineParamKnotS (p : bspl) : R := bs_at p (bs_order p).
Definition zBSplineParamKnotE (p : bspl) : R := bs_at p (length (bs_knot p) - bs_order p - 1).
Definition zBSplineParamKnotSlice (p : bspl) (k : nat) : R :=
  (zBSplineParamKnotE p - zBSplineParamKnotS p) * INR k / INR (bs_slice p) + zBSplineParamKnotS p.
(** ZM: zBSplineParamBasis *)
Fixpoint zBSplineParamBasis (p : bspl) (t : R) (i r k : nat) : R :=
  match r with
  | O => if Nat.eqb i k then 1 else 0
  | S r' =>
      (if Nat.ltb k (i + r) then
         if Reqb (bs_at p (i + r)) (bs_at p i) then 0
         else (t - bs_at p i) / (bs_at p (i + r) - bs_at p i) * zBSplineParamBasis p t i r' k
       else 0) +
      (if Nat.leb i k then
         if Reqb (bs_at p (i + r + 1)) (bs_at p (i + 1)) then 0
         else (bs_at p (i + r + 1) - t) / (bs_at p (i + r + 1) - bs_at p (i + 1)) * zBSplineParamBasis p t (i + 1) r' k
       else 0)
  end.
(** ZM: zBSplineParamBasisDiff for the first derivative *)
Definition zBSplineParamBasisDiff1 (p : bspl) (t : R) (i r k : nat) : R :=
  match r with
  | O => 0
  | S r' =>
      INR r *
      ((if Nat.ltb k (i + r) then
          if Reqb (bs_at p (i + r)) (bs_at p i) then 0
          else zBSplineParamBasis p t i r' k / (bs_at p (i + r) - bs_at p i)
        else 0) -
       (if Nat.leb i k then
          if Reqb (bs_at p (i + r + 1)) (bs_at p (i + 1)) then 0
          else zBSplineParamBasis p t (i + 1) r' k / (bs_at p (i + r + 1) - bs_at p (i + 1))
        else 0))
  end.
(** ZM: zBSplineParamKnotInit, a uniform spline with fixed ends *)
Definition knotInit (order size : nat) : list R :=
  repeat 0 (order + 1) ++ map INR (seq 1 (size - order - 1)) ++ repeat (INR (size - order)) (order + 1).

(** zeo_nurbs3d.c 10-38 (allocation succeeds); the slices are set to a default by ZM *)
Definition zNURBS3DAlloc (size1 size2 order1 order2 slice : nat) : option nurbs :=
  if Nat.leb size1 order1 || Nat.leb size2 order2 then None
  else Some (NU (BS order1 (knotInit order1 size1) slice) (BS order2 (knotInit order2 size2) slice) size1 size2 (fun _ _ => CPC v3zero 1)).
(** zeo_nurbs3d.h 66-70: access to the net *)
Definition zNURBS3DCP (n : nurbs) (i j : nat) : vec3 := nc_cp (nu_net n i j).
Definition zNURBS3DWeight (n : nurbs) (i j : nat) : R := nc_w (nu_net n i j).
Definition set_net (n : nurbs) (net : nat -> nat -> cell) : nurbs := NU (nu_0 n) (nu_1 n) (nu_n0 n) (nu_n1 n) net.
Definition zNURBS3DSetCP (n : nurbs) (i j : nat) (v : vec3) : nurbs :=
  set_net n (fun a b => if Nat.eqb a i && Nat.eqb b j then CPC v (nc_w (nu_net n a b)) else nu_net n a b).
Definition zNURBS3DSetWeight (n : nurbs) (i j : nat) (w : R) : nurbs :=
  set_net n (fun a b => if Nat.eqb a i && Nat.eqb b j then CPC (nc_cp (nu_net n a b)) w else nu_net n a b).
(** 54-55: knots of one axis, set one after the other *)
Definition set_knots (n : nurbs) (i : nat) (ks : list R) : nurbs :=
  match i with
  | O => NU (BS (bs_order (nu_0 n)) ks (bs_slice (nu_0 n))) (nu_1 n) (nu_n0 n) (nu_n1 n) (nu_net n)
  | _ => NU (nu_0 n) (BS (bs_order (nu_1 n)) ks (bs_slice (nu_1 n))) (nu_n0 n) (nu_n1 n) (nu_net n)
  end.
(** an update of every control point *)
Definition map_cp (g : vec3 -> vec3) (n : nurbs) : nurbs := set_net n (fun i j => CPC (g (nc_cp (nu_net n i j))) (nc_w (nu_net n i j))).
(** zeo_nurbs3d.c 83-116, for a destination of the same sizes *)
Definition zNURBS3DMirror (n : nurbs) (axis : nat) : nurbs := map_cp (flip_e axis) n.
Definition zNURBS3DXform (n : nurbs) (f : frame3) : nurbs := map_cp (zXform3D f) n.
Definition zNURBS3DXformInv (n : nurbs) (f : frame3) : nurbs := map_cp (zXform3DInv f) n.

Section Eval.
  Variable seg : nat -> list R -> R -> nat.
  Definition zBSplineParamSeg (p : bspl) (t : R) : nat := seg (bs_order p) (bs_knot p) t.
  (** the loops read the numbers s - order .. s: inside of the net *)
  Definition in_net (n : nurbs) (su sv : nat) : bool :=
    Nat.leb (bs_order (nu_0 n)) su && Nat.ltb su (nu_n0 n) && Nat.leb (bs_order (nu_1 n)) sv && Nat.ltb sv (nu_n1 n).
  Definition active (p : bspl) (s : nat) : list nat := seq (s - bs_order p) (S (bs_order p)).

  (** 119-139 *)
  Definition zNURBS3DVec (n : nurbs) (u v : R) : option (option vec3) :=
    let su := zBSplineParamSeg (nu_0 n) u in
    let sv := zBSplineParamSeg (nu_1 n) v in
    if in_net n su sv then
      let '(p, den) :=
        fold_left (fun '(p, den) i =>
          let bu := zBSplineParamBasis (nu_0 n) u i (bs_order (nu_0 n)) su in
          let '(tmp, dv) :=
            fold_left (fun '(tmp, dv) j =>
              let bv := zNURBS3DWeight n i j * zBSplineParamBasis (nu_1 n) v j (bs_order (nu_1 n)) sv in
              (zVec3DCat tmp bv (zNURBS3DCP n i j), dv + bv)) (active (nu_1 n) sv) (v3zero, 0) in
          (zVec3DCat p bu tmp, den + bu * dv)) (active (nu_0 n) su) (v3zero, 0) in
      Some (if zIsTiny den then None else zVec3DDiv p den)
    else None.

  (** 142-187: the point, the normal and the two tangents, for four non-null outputs *)
  Definition zNURBS3DVecTSpace (n : nurbs) (u v : R) : option (option (vec3 * vec3 * vec3 * vec3)) :=
    let su := zBSplineParamSeg (nu_0 n) u in
    let sv := zBSplineParamSeg (nu_1 n) v in
    if in_net n su sv then
      let '(p, tu, tv, den, dubv, budv) :=
        fold_left (fun '(p, tu, tv, den, dubv, budv) i =>
          let bu := zBSplineParamBasis (nu_0 n) u i (bs_order (nu_0 n)) su in
          let dbu := zBSplineParamBasisDiff1 (nu_0 n) u i (bs_order (nu_0 n)) su in
          let '(pv, dpv, dv, ddv) :=
            fold_left (fun '(pv, dpv, dv, ddv) j =>
              let bv := zNURBS3DWeight n i j * zBSplineParamBasis (nu_1 n) v j (bs_order (nu_1 n)) sv in
              let dbv := zNURBS3DWeight n i j * zBSplineParamBasisDiff1 (nu_1 n) v j (bs_order (nu_1 n)) sv in
              (zVec3DCat pv bv (zNURBS3DCP n i j), zVec3DCat dpv dbv (zNURBS3DCP n i j), dv + bv, ddv + dbv)) (active (nu_1 n) sv) (v3zero, v3zero, 0, 0) in
          (zVec3DCat p bu pv, zVec3DCat tu dbu pv, zVec3DCat tv bu dpv, den + bu * dv, dubv + dbu * dv, budv + bu * ddv))
          (active (nu_0 n) su) (v3zero, v3zero, v3zero, 0, 0, 0) in
      Some (if zIsTiny den then None
            else match zVec3DDiv p den with
                 | None => None
                 | Some p =>
                     let tu := zVec3DCat tu (- dubv) p in
                     let tv := zVec3DCat tv (- budv) p in
                     let nn := zVec3DOuterProd tu tv in
                     Some (p, (if zVec3DIsTiny nn then v3zero else snd (zVec3DNormalizeDRC nn)),
                           (if zVec3DIsTiny tu then tu else snd (zVec3DNormalizeDRC tu)), (if zVec3DIsTiny tv then tv else snd (zVec3DNormalizeDRC tv)))
                 end)
    else None.

  (** ZM: zLimit *)
  Definition limit (x lo hi : R) : R := if Rltb hi x then hi else if Rltb x lo then lo else x.
  (** 190-227: one turn of the loop at the parameters [u], [v]; [prev] is the previous error, [None] for HUGE_VAL.
      The outcome: [None] for undefined (parameters, a null pointer left unread, a division by zero). *)
  Definition closestStep (n : nurbs) (p : vec3) (u v : R) : option (vec3 * R * R) :=
    match zNURBS3DVecTSpace n u v with
    | Some (Some (nn, _, du, dv)) =>
        let e := zVec3DSub p nn in
        let eval := zVec3DNorm e in
        let duu := zVec3DInnerProd du du in
        let duv := zVec3DInnerProd du dv in
        let dvv := zVec3DInnerProd dv dv in
        let eu := zVec3DInnerProd du e in
        let ev := zVec3DInnerProd dv e in
        let det := duu * dvv - duv * duv in
        if Reqb det 0 then None
        else
          let gain := 1 / 10 / det in
          Some (nn, limit (u + ((dvv + eval) * eu - duv * ev) * gain) (zBSplineParamKnotS (nu_0 n)) (zBSplineParamKnotE (nu_0 n)),
                    limit (v + ((duu + eval) * ev - duv * eu) * gain) (zBSplineParamKnotS (nu_1 n)) (zBSplineParamKnotE (nu_1 n)))
    | _ => None
    end.
  Fixpoint closestLoop (iter : nat) (n : nurbs) (p : vec3) (nn : option vec3) (u v : R) (prev : option R) : option (option vec3 * R * R) :=
    match iter with
    | O => Some (nn, u, v)
    | S iter =>
        match closestStep n p u v with
        | None => None
        | Some (q, u', v') =>
            let eval := zVec3DNorm (zVec3DSub p q) in
            if (zIsTiny (u' - u) && zIsTiny (v' - v)) || match prev with Some e => zIsTiny (eval - e) | None => false end
            then Some (Some q, u', v')
            else closestLoop iter n p (Some q) u' v' (Some eval)
        end
    end.
  (** [iter] is ZM's maximum number of iterations; result: distance, point, parameters *)
  Definition zNURBS3DClosest (iter : nat) (n : nurbs) (p : vec3) : option (R * vec3 * R * R) :=
    let u := 1 / 2 * (zBSplineParamKnotS (nu_0 n) + zBSplineParamKnotE (nu_0 n)) in
    let v := 1 / 2 * (zBSplineParamKnotS (nu_1 n) + zBSplineParamKnotE (nu_1 n)) in
    match closestLoop iter n p None u v None with
    | Some (Some nn, u, v) => Some (zVec3DDist p nn, nn, u, v)
    | _ => None
    end.

  (** 230-263: vertices in the order of the array (a null point is not stored), faces *)
  Definition grid_faces (n0 n1 : nat) : list (nat * nat * nat) :=
    flat_map (fun i => flat_map (fun j => let a := (i * (n1 + 1) + j)%nat in let b := (a + (n1 + 1))%nat in [(a, b, b + 1); (a, b + 1, a + 1)]%nat) (seq 0 n1)) (seq 0 n0).
  Definition zNURBS3DToPH (n : nurbs) : option mesh :=
    let n0 := bs_slice (nu_0 n) in
    let n1 := bs_slice (nu_1 n) in
    match mapM (fun '(i, j) => zNURBS3DVec n (zBSplineParamKnotSlice (nu_0 n) i) (zBSplineParamKnotSlice (nu_1 n) j)) (list_prod (seq 0 (n0 + 1)) (seq 0 (n1 + 1))) with
    | None => None
    | Some ps => Some (MS ((n0 + 1) * (n1 + 1)) (flat_map (fun o => match o with Some p => [p] | None => [] end) ps) (n0 * n1 * 2) (grid_faces n0 n1))
    end.
End Eval.

(** ** src/zeo_nurbs3d_shape.c *)
(** 10-30 *)
Definition ellipsKnots : list R := [0; 0; 0; 1/4; 1/4; 1/2; 1/2; 3/4; 3/4; 1; 1; 1].
(** 33-50 *)
Definition ellipsInitCP (n : nurbs) (i : nat) (c : vec3) (rx ry : R) (ax ay : vec3) : nurbs :=
  let n := zNURBS3DSetCP n 0 i (zVec3DCat c rx ax) in
  let n := zNURBS3DSetCP n 1 i (zVec3DCat (zNURBS3DCP n 0 i) ry ay) in
  let n := zNURBS3DSetCP n 2 i (zVec3DCat c ry ay) in
  let n := zNURBS3DSetCP n 3 i (zVec3DCat (zNURBS3DCP n 2 i) (- rx) ax) in
  let n := zNURBS3DSetCP n 4 i (zVec3DCat c (- rx) ax) in
  let n := zNURBS3DSetCP n 5 i (zVec3DCat (zNURBS3DCP n 4 i) (- ry) ay) in
  let n := zNURBS3DSetCP n 6 i (zVec3DCat c (- ry) ay) in
  let n := zNURBS3DSetCP n 7 i (zVec3DCat (zNURBS3DCP n 6 i) rx ax) in
  zNURBS3DSetCP n 8 i (zNURBS3DCP n 0 i).
(** 1.0 for an even number, 1.0/sqrt(2) for an odd one *)
Definition arcWeight (i : nat) : R := if Nat.even i then 1 else 1 / sqrt 2.
Definition for_loop {S} (from to : nat) (body : nat -> S -> S) (s : S) : S := fold_left (fun s i => body i s) (seq from (to - from)) s.
(** 53-87 *)
Definition zNURBS3DBox (b : box3) (slice : nat) : option nurbs :=
  match zNURBS3DAlloc 4 5 1 1 slice with
  | None => None
  | Some n =>
      let n := zNURBS3DSetCP n 0 0 (zVec3DCat (zBox3DCenter b) (1/2 * zBox3DSpan b 2) (zBox3DAxis b 2)) in
      let n := zNURBS3DSetCP n 3 0 (zVec3DCat (zBox3DCenter b) (- (1/2) * zBox3DSpan b 2) (zBox3DAxis b 2)) in
      let n := for_loop 0 4 (fun i n => let n := zNURBS3DSetCP n 1 i (zBox3DVert b i) in zNURBS3DSetCP n 2 i (zBox3DVert b (i + 4))) n in
      let n := zNURBS3DSetCP n 1 4 (zNURBS3DCP n 1 0) in
      let n := zNURBS3DSetCP n 2 4 (zNURBS3DCP n 2 0) in
      let n := for_loop 1 5 (fun i n => let n := zNURBS3DSetCP n 0 i (zNURBS3DCP n 0 0) in zNURBS3DSetCP n 3 i (zNURBS3DCP n 3 0)) n in
      Some (set_knots (set_knots n 0 [0; 0; 1; 1; 2; 2]) 1 [0; 0; 1; 2; 3; 4; 4])
  end.
(** 90-118 *)
Definition zNURBS3DEllips (e : ellips3) (slice : nat) : option nurbs :=
  match zNURBS3DAlloc 9 5 2 2 slice with
  | None => None
  | Some n =>
      let c := fpos (elf e) in
      let az := bz (fatt (elf e)) in
      let rz := vz (elrad e) in
      let n := ellipsInitCP n 2 c (vx (elrad e)) (vy (elrad e)) (bx (fatt (elf e))) (by_ (fatt (elf e))) in
      let n := for_loop 0 9 (fun i n =>
        let n := zNURBS3DSetCP n i 0 (zVec3DCat c (- rz) az) in
        let n := zNURBS3DSetCP n i 1 (zVec3DCat (zNURBS3DCP n i 2) (- rz) az) in
        let n := zNURBS3DSetCP n i 3 (zVec3DCat (zNURBS3DCP n i 2) rz az) in
        let n := zNURBS3DSetCP n i 4 (zVec3DCat c rz az) in
        for_loop 0 5 (fun j n => zNURBS3DSetWeight n i j (arcWeight i * arcWeight j)) n) n in
      Some (set_knots (set_knots n 0 ellipsKnots) 1 [0; 0; 0; 1/2; 1/2; 1; 1; 1])
  end.
(** 121-127 *)
Definition zNURBS3DSphere (s : sphere3) (slice : nat) : option nurbs := zNURBS3DEllips (zSphere3DToEllips3D s) slice.
(** 130-150 *)
Definition zNURBS3DECyl (c : ecyl3) (slice : nat) : option nurbs :=
  match zNURBS3DAlloc 9 4 2 1 slice with
  | None => None
  | Some n =>
      let n := ellipsInitCP n 1 (ec0 c) (er0 c) (er1 c) (ev0 c) (ev1 c) in
      let axis := zECyl3DAxis c in
      let n := for_loop 0 9 (fun i n =>
        let n := zNURBS3DSetCP n i 0 (ec0 c) in
        let n := zNURBS3DSetCP n i 2 (zVec3DAdd (zNURBS3DCP n i 1) axis) in
        let n := zNURBS3DSetCP n i 3 (ec1 c) in
        let n := zNURBS3DSetWeight n i 0 (arcWeight i) in
        let n := zNURBS3DSetWeight n i 1 (zNURBS3DWeight n i 0) in
        let n := zNURBS3DSetWeight n i 2 (zNURBS3DWeight n i 0) in
        zNURBS3DSetWeight n i 3 (zNURBS3DWeight n i 0)) n in
      Some (set_knots (set_knots n 0 ellipsKnots) 1 [0; 0; 1; 1; 2; 2])
  end.
(** src/zeo_shape3d_ecyl.c 199-206 *)
Definition zCyl3DToECyl3D (c : cyl3) : option ecyl3 :=
  match zVec3DOrthonormalSpace (zCyl3DAxis c) with
  | Some (_, ax, _) => zECyl3DCreate (cc0 c) (cc1 c) (crad c) (crad c) (Some ax) (cdiv c)
  | None => None
  end.
(** 153-159 *)
Definition zNURBS3DCyl (c : cyl3) (slice : nat) : option nurbs :=
  match zCyl3DToECyl3D c with Some e => zNURBS3DECyl e slice | None => None end.
(** 162-189; [None] when the ignored failure of zVec3DOrthoSpace leaves the axes unset *)
Definition zNURBS3DCone (c : cone3) (slice : nat) : option nurbs :=
  match zNURBS3DAlloc 9 3 2 1 slice with
  | None => None
  | Some n =>
      let axis := zCone3DAxis c in
      match zVec3DOrthoSpace axis with
      | None => None
      | Some (ax, ay) =>
          let ax := snd (zVec3DNormalizeDRC ax) in
          let ay := snd (zVec3DNormalizeDRC ay) in
          let n := ellipsInitCP n 1 (kcen c) (krad c) (krad c) ax ay in
          let n := for_loop 0 9 (fun i n =>
            let n := zNURBS3DSetCP n i 0 (kcen c) in
            let n := zNURBS3DSetCP n i 2 (zVec3DAdd (kcen c) axis) in
            let n := zNURBS3DSetWeight n i 0 (arcWeight i) in
            let n := zNURBS3DSetWeight n i 1 (zNURBS3DWeight n i 0) in
            zNURBS3DSetWeight n i 2 (zNURBS3DWeight n i 0)) n in
          Some (set_knots (set_knots n 0 ellipsKnots) 1 [0; 0; 1; 2; 2])
      end
  end.
(** 192-219 *)
Definition zNURBS3DTorus (center ax ay az : vec3) (rring rtube : R) (slice : nat) : option nurbs :=
  match zNURBS3DAlloc 9 9 2 2 slice with
  | None => None
  | Some n =>
      let n := for_loop 0 9 (fun j n =>
        let r := match j with 2%nat | 6%nat => rring | 0%nat | 1%nat | 7%nat | 8%nat => rring + rtube | _ => rring - rtube end in
        let b := match j with 0%nat | 4%nat | 8%nat => 0 | 1%nat | 2%nat | 3%nat => rtube | _ => - rtube end in
        let n := ellipsInitCP n j (zVec3DCat center b az) r r ax ay in
        for_loop 0 9 (fun i n => zNURBS3DSetWeight n i j (arcWeight i * arcWeight j)) n) n in
      Some (set_knots (set_knots n 0 ellipsKnots) 1 ellipsKnots)
  end.

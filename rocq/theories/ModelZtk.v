(** Shape description files (the ZTK format): src/zeo_shape3d.c, zeo_shape3d_*.c,
    zeo_ph3d.c, zeo_render_texture.c, zeo_multishape3d.c and the readers of
    vectors, matrices and frames.
    A parsed section is a list of keys with their values, in the order of the
    file.  The tokeniser and the key loop belong to ZEDA: their behaviour is an
    assumption listed in DESIGN.md.  Numbers are reals (the code prints them
    with ten digits). *)
From Coq Require Import Ascii String.
From Verif Require Export ModelMass ModelPrism SpecColor ModelColor.
Open Scope R_scope.

(** ** Values and the key loop (ZEDA) *)
(** a value: a number, an integer, a word, a group in parentheses or in braces *)
Inductive tok := TNum (x : R) | TInt (n : Z) | TWord (s : string) | TPar (l : list R) | TBrc (l : list R).
Definition entry := (string * list tok)%type.
Definition sect := list entry.
(** result of a reader: the object, the object as left behind by a failure, or
    undefined behaviour (a null or wild pointer, an uninitialised variable) and
    what this model leaves out *)
Inductive rd (A : Type) := ROk (a : A) | RFail (a : A) | RUndef.
Arguments ROk {A}. Arguments RFail {A}. Arguments RUndef {A}.

(** ZTKDouble, ZTKInt: convert the token under the cursor as [atof] and [atoi]
    do and advance; no token gives 0 *)
Definition tok_num (t : tok) : R := match t with TNum x => x | TInt n => IZR n | _ => 0 end.
Definition trunc (x : R) : Z := if Rltb x 0 then (- (up (- x) - 1))%Z else (up x - 1)%Z.
Definition tok_int (t : tok) : Z := match t with TNum x => trunc x | TInt n => n | _ => 0%Z end.
Definition ZTKDouble (v : list tok) : R * list tok := match v with [] => (0, []) | t :: r => (tok_num t, r) end.
Definition ZTKInt (v : list tok) : Z * list tok := match v with [] => (0%Z, []) | t :: r => (tok_int t, r) end.
Fixpoint ZTKDoubles (n : nat) (v : list tok) : list R * list tok :=
  match n with
  | O => ([], v)
  | S n => let '(x, v) := ZTKDouble v in let '(l, v) := ZTKDoubles n v in (x :: l, v)
  end.
(** ZTKVal: the word under the cursor; a missing or other token is left out *)
Definition ZTKVal (v : list tok) : option string := match v with TWord s :: _ => Some s | _ => None end.

(** one line of a key table: the key, the number of times it is evaluated (none
    for -1), the handler, which gets the number of the occurrence *)
Record prp (S : Type) := PRP { pkey : string; pnum : option nat; pev : S -> nat -> list tok -> rd S }.
Arguments PRP {S}. Arguments pkey {S}. Arguments pnum {S}. Arguments pev {S}.
Definition occs (k : string) (seen : list string) : nat := length (filter (String.eqb k) seen).
Definition over (n : option nat) (i : nat) : bool := match n with Some m => Nat.leb m i | None => false end.
Section Eval.
  Context {S : Type}.
  Variable tbl : list (prp S).
  Fixpoint evalKeys (seen : list string) (s : S) (d : sect) : rd S :=
    match d with
    | [] => ROk s
    | (k, v) :: d =>
        match find (fun p => String.eqb (pkey p) k) tbl with
        | None => evalKeys (k :: seen) s d
        | Some p =>
            if over (pnum p) (occs k seen) then evalKeys (k :: seen) s d
            else match pev p s (occs k seen) v with
                 | ROk s => evalKeys (k :: seen) s d
                 | r => r
                 end
        end
    end.
  Definition ZTKEvalKey (s : S) (d : sect) : rd S := evalKeys [] s d.
End Eval.
Definition ZTKCountKey (k : string) (d : sect) : nat := occs k (map fst d).

(** ** Vectors, matrices, frames *)
(** a group is parsed from the one token and the cursor stays on it; otherwise
    the numbers are taken one by one.  A missing token is a null pointer; a
    group of too few numbers leaves components unset *)
Definition nums (n : nat) (group : tok -> option (list R)) (v : list tok) : option (list R * list tok) :=
  match v with
  | [] => None
  | t :: _ =>
      match group t with
      | Some l => if Nat.leb n (length l) then Some (firstn n l, v) else None
      | None => Some (ZTKDoubles n v)
      end
  end.
Definition par (t : tok) : option (list R) := match t with TPar l => Some l | _ => None end.
Definition brc (t : tok) : option (list R) := match t with TBrc l => Some l | _ => None end.
Definition nthR (l : list R) (i : nat) : R := nth i l 0.
(** src/zeo_vec3d.c 510-525 *)
Definition zVec3DFromZTK (v : list tok) : option (vec3 * list tok) :=
  match nums 3 par v with
  | Some (l, v) => Some (V3 (nthR l 0) (nthR l 1) (nthR l 2), v)
  | None => None
  end.
(** src/zeo_vec2d.c: the same with two numbers *)
Definition zVec2DFromZTK (v : list tok) : option (vec2 * list tok) :=
  match nums 2 par v with
  | Some (l, v) => Some (V2 (nthR l 0) (nthR l 1), v)
  | None => None
  end.
(** src/zeo_mat3d.c 1010-1026: row by row *)
Definition zMat3DFromZTK (v : list tok) : option mat3 :=
  match nums 9 brc v with
  | Some (l, _) => Some (of_b (V3 (nthR l 0) (nthR l 3) (nthR l 6)) (V3 (nthR l 1) (nthR l 4) (nthR l 7)) (V3 (nthR l 2) (nthR l 5) (nthR l 8)))
  | None => None
  end.
(** src/zeo_frame3d.c 320-343: row by row, the position in the fourth column *)
Definition zFrame3DFromZTK (v : list tok) : option frame3 :=
  match nums 12 brc v with
  | Some (l, _) => Some (F3 (V3 (nthR l 3) (nthR l 7) (nthR l 11))
      (of_b (V3 (nthR l 0) (nthR l 4) (nthR l 8)) (V3 (nthR l 1) (nthR l 5) (nthR l 9)) (V3 (nthR l 2) (nthR l 6) (nthR l 10))))
  | None => None
  end.
(** the values printed by zVec3DFPrint (zeo_vec3d.c), zVec2DFPrint, zMat3DToZTK
    (zeo_mat3d.c 1029-1041) and zFrame3DToZTK (zeo_frame3d.c 345-356) *)
Definition zVec3DFPrint (p : vec3) : list tok := [TPar [vx p; vy p; vz p]].
Definition zVec2DFPrint (p : vec2) : list tok := [TPar [x2 p; y2 p]].
Definition zMat3DToZTK (m : mat3) : list tok :=
  [TBrc [cxx m; cyx m; czx m; cxy m; cyy m; czy m; cxz m; cyz m; czz m]].
Definition zFrame3DToZTK (f : frame3) : list tok := let m := fatt f in let p := fpos f in
  [TBrc [cxx m; cyx m; czx m; vx p; cxy m; cyy m; czy m; vy p; cxz m; cyz m; czz m; vz p]].
(** include/zeo/zeo_vec3d.h: the zero vector *)
Definition ZVEC3DZERO : vec3 := V3 0 0 0.
(** ZM: degrees *)
Definition zDeg2Rad (x : R) : R := x * PI / 180.
(** src/zeo_mat3d.c 1064-1076: axis, then angle *)
Definition zAAFromZTK (v : list tok) : option vec3 :=
  match zVec3DFromZTK v with
  | Some (axis, v) =>
      let angle := zDeg2Rad (fst (ZTKDouble v)) in
      let '(n, axis) := zVec3DNormalizeDRC axis in
      Some (if Rltb 0 n then zVec3DMul axis angle else ZVEC3DZERO)
  | None => None
  end.

Definition withV {S} (s : option (vec3 * list tok)) (g : vec3 -> S) : rd S :=
  match s with Some (p, _) => ROk (g p) | None => RUndef end.
Definition num1 (v : list tok) : R := fst (ZTKDouble v).
(** src/zeo_shape3d.c 299-303 *)
Definition zShape3DDivFromZTK (v : list tok) : Z := let n := fst (ZTKInt v) in if Z.ltb 0 n then n else ZEO_ELEM_DEFAULT_DIV.
Open Scope string_scope. Open Scope list_scope.
(** ZTKValCmp *)
Definition isAuto (v : list tok) : bool := match v with TWord s :: _ => String.eqb s "auto" | _ => false end.

(** ** Box: src/zeo_shape3d_box.c 33-100, 135-137 *)
Definition colOf (m : mat3) (i : nat) : vec3 := match i with 0%nat => bx m | 1%nat => by_ m | _ => bz m end.
Definition setCol (m : mat3) (i : nat) (a : vec3) : mat3 :=
  match i with 0%nat => of_b a (by_ m) (bz m) | 1%nat => of_b (bx m) a (bz m) | _ => of_b (bx m) (by_ m) a end.
(** 33-43 (and zeo_shape3d_ellips.c 246-255): the word "auto" takes the outer
    product of the two other axes as they are at that moment *)
Definition axisFromZTK (m : mat3) (i0 i1 i2 : nat) (v : list tok) : option mat3 :=
  match (if isAuto v then Some (zVec3DOuterProd (colOf m i1) (colOf m i2)) else option_map fst (zVec3DFromZTK v)) with
  | Some a => Some (setCol m i0 (snd (zVec3DNormalizeDRC a)))
  | None => None
  end.
Definition boxAxis (i0 i1 i2 : nat) (b : box3) (_ : nat) (v : list tok) : rd box3 :=
  match axisFromZTK (fatt (bframe b)) i0 i1 i2 v with
  | Some m => ROk (BX (F3 (fpos (bframe b)) m) (bspan b))
  | None => RUndef
  end.
Definition boxPrp : list (prp box3) := [
  PRP "center" (Some 1%nat) (fun b _ v => withV (zVec3DFromZTK v) (fun p => BX (F3 p (fatt (bframe b))) (bspan b)));
  PRP "ax" (Some 1%nat) (boxAxis 0 1 2);
  PRP "ay" (Some 1%nat) (boxAxis 1 2 0);
  PRP "az" (Some 1%nat) (boxAxis 2 0 1);
  PRP "depth" (Some 1%nat) (fun b _ v => ROk (BX (bframe b) (V3 (num1 v) (vy (bspan b)) (vz (bspan b)))));
  PRP "width" (Some 1%nat) (fun b _ v => ROk (BX (bframe b) (V3 (vx (bspan b)) (num1 v) (vz (bspan b)))));
  PRP "height" (Some 1%nat) (fun b _ v => ROk (BX (bframe b) (V3 (vx (bspan b)) (vy (bspan b)) (num1 v))))].
Definition zBox3DInit : box3 := BX (F3 ZVEC3DZERO ZMAT3DIDENT) ZVEC3DZERO.
Definition zBox3DFPrintZTK (b : box3) : sect := [
  ("center", zVec3DFPrint (fpos (bframe b)));
  ("ax", zVec3DFPrint (colOf (fatt (bframe b)) 0)); ("ay", zVec3DFPrint (colOf (fatt (bframe b)) 1)); ("az", zVec3DFPrint (colOf (fatt (bframe b)) 2));
  ("depth", [TNum (vx (bspan b))]); ("width", [TNum (vy (bspan b))]); ("height", [TNum (vz (bspan b))])].

(** ** Sphere: src/zeo_shape3d_sphere.c 105-139, 173-175 *)
Definition spherePrp : list (prp sphere3) := [
  PRP "center" (Some 1%nat) (fun s _ v => withV (zVec3DFromZTK v) (fun p => SP p (srad s) (sdiv s)));
  PRP "radius" (Some 1%nat) (fun s _ v => ROk (SP (scen s) (num1 v) (sdiv s)));
  PRP "div" (Some 1%nat) (fun s _ v => ROk (SP (scen s) (srad s) (zShape3DDivFromZTK v)))].
Definition zSphere3DInit : sphere3 := zSphere3DCreate ZVEC3DZERO 0 0.
Definition zSphere3DFPrintZTK (s : sphere3) : sect :=
  [("center", zVec3DFPrint (scen s)); ("radius", [TNum (srad s)]); ("div", [TInt (sdiv s)])].

(** ** Cylinder and capsule: src/zeo_shape3d_cyl.c 229-263, 296-298; zeo_shape3d_capsule.c 187-221 *)
Definition cylPrp : list (prp cyl3) := [
  PRP "center" (Some 2%nat) (fun c i v => withV (zVec3DFromZTK v) (fun p => match i with 0%nat => CY p (cc1 c) (crad c) (cdiv c) | _ => CY (cc0 c) p (crad c) (cdiv c) end));
  PRP "radius" (Some 1%nat) (fun c _ v => ROk (CY (cc0 c) (cc1 c) (num1 v) (cdiv c)));
  PRP "div" (Some 1%nat) (fun c _ v => ROk (CY (cc0 c) (cc1 c) (crad c) (zShape3DDivFromZTK v)))].
Definition zCyl3DInit : cyl3 := CY ZVEC3DZERO ZVEC3DZERO 0 ZEO_ELEM_DEFAULT_DIV.
Definition zCyl3DFPrintZTK (c : cyl3) : sect :=
  [("center", zVec3DFPrint (cc0 c)); ("center", zVec3DFPrint (cc1 c)); ("radius", [TNum (crad c)]); ("div", [TInt (cdiv c)])].

(** ** Cone: src/zeo_shape3d_cone.c 242-283, 317-319 *)
Definition conePrp : list (prp cone3) := [
  PRP "center" (Some 1%nat) (fun c _ v => withV (zVec3DFromZTK v) (fun p => CN p (kvert c) (krad c) (kdiv c)));
  PRP "vert" (Some 1%nat) (fun c _ v => withV (zVec3DFromZTK v) (fun p => CN (kcen c) p (krad c) (kdiv c)));
  PRP "radius" (Some 1%nat) (fun c _ v => ROk (CN (kcen c) (kvert c) (num1 v) (kdiv c)));
  PRP "div" (Some 1%nat) (fun c _ v => ROk (CN (kcen c) (kvert c) (krad c) (zShape3DDivFromZTK v)))].
Definition zCone3DInit : cone3 := CN ZVEC3DZERO ZVEC3DZERO 0 ZEO_ELEM_DEFAULT_DIV.
Definition zCone3DFPrintZTK (c : cone3) : sect :=
  [("center", zVec3DFPrint (kcen c)); ("vert", zVec3DFPrint (kvert c)); ("radius", [TNum (krad c)]); ("div", [TInt (kdiv c)])].

(** ** Ellipsoid: src/zeo_shape3d_ellips.c 243-321, 356-358 *)
Definition elAxis (i0 i1 i2 : nat) (e : ellips3) (_ : nat) (v : list tok) : rd ellips3 :=
  match axisFromZTK (fatt (elf e)) i0 i1 i2 v with
  | Some m => ROk (EL (elrad e) (F3 (fpos (elf e)) m) (eldiv e))
  | None => RUndef
  end.
Definition ellipsPrp : list (prp ellips3) := [
  PRP "center" (Some 1%nat) (fun e _ v => withV (zVec3DFromZTK v) (fun p => EL (elrad e) (F3 p (fatt (elf e))) (eldiv e)));
  PRP "ax" (Some 1%nat) (elAxis 0 1 2);
  PRP "ay" (Some 1%nat) (elAxis 1 2 0);
  PRP "az" (Some 1%nat) (elAxis 2 0 1);
  PRP "rx" (Some 1%nat) (fun e _ v => ROk (EL (V3 (num1 v) (vy (elrad e)) (vz (elrad e))) (elf e) (eldiv e)));
  PRP "ry" (Some 1%nat) (fun e _ v => ROk (EL (V3 (vx (elrad e)) (num1 v) (vz (elrad e))) (elf e) (eldiv e)));
  PRP "rz" (Some 1%nat) (fun e _ v => ROk (EL (V3 (vx (elrad e)) (vy (elrad e)) (num1 v)) (elf e) (eldiv e)));
  PRP "div" (Some 1%nat) (fun e _ v => ROk (EL (elrad e) (elf e) (zShape3DDivFromZTK v)))].
Definition zEllips3DInit : ellips3 := EL ZVEC3DZERO (F3 ZVEC3DZERO ZMAT3DIDENT) ZEO_ELEM_DEFAULT_DIV.
Definition zEllips3DFPrintZTK (e : ellips3) : sect := [
  ("center", zVec3DFPrint (fpos (elf e)));
  ("ax", zVec3DFPrint (colOf (fatt (elf e)) 0)); ("ay", zVec3DFPrint (colOf (fatt (elf e)) 1)); ("az", zVec3DFPrint (colOf (fatt (elf e)) 2));
  ("rx", [TNum (vx (elrad e))]); ("ry", [TNum (vy (elrad e))]); ("rz", [TNum (vz (elrad e))]); ("div", [TInt (eldiv e)])].

(** ** Elliptic cylinder: src/zeo_shape3d_ecyl.c 253-295, 330-332 *)
Definition ecylPrp : list (prp ecyl3) := [
  PRP "center" (Some 2%nat) (fun c i v => withV (zVec3DFromZTK v) (fun p =>
    match i with 0%nat => EC p (ec1 c) (er0 c) (er1 c) (ev0 c) (ev1 c) (ecdiv c) | _ => EC (ec0 c) p (er0 c) (er1 c) (ev0 c) (ev1 c) (ecdiv c) end));
  PRP "radius" (Some 2%nat) (fun c i v => ROk (match i with
    0%nat => EC (ec0 c) (ec1 c) (num1 v) (er1 c) (ev0 c) (ev1 c) (ecdiv c) | _ => EC (ec0 c) (ec1 c) (er0 c) (num1 v) (ev0 c) (ev1 c) (ecdiv c) end));
  PRP "ref" (Some 1%nat) (fun c _ v =>
    match zVec3DFromZTK v with
    | Some (r, _) => match zECyl3DDefAxis (zECyl3DAxis c) (Some r) with
                     | Some (u0, u1) => ROk (EC (ec0 c) (ec1 c) (er0 c) (er1 c) u0 u1 (ecdiv c))
                     | None => RUndef
                     end
    | None => RUndef
    end);
  PRP "div" (Some 1%nat) (fun c _ v => ROk (EC (ec0 c) (ec1 c) (er0 c) (er1 c) (ev0 c) (ev1 c) (zShape3DDivFromZTK v)))].
Definition zECyl3DInit : ecyl3 := EC ZVEC3DZERO ZVEC3DZERO 0 0 ZVEC3DZERO ZVEC3DZERO ZEO_ELEM_DEFAULT_DIV.
Definition zECyl3DFPrintZTK (c : ecyl3) : sect := [
  ("center", zVec3DFPrint (ec0 c)); ("center", zVec3DFPrint (ec1 c));
  ("radius", [TNum (er0 c)]); ("radius", [TNum (er1 c)]); ("ref", zVec3DFPrint (ev0 c)); ("div", [TInt (ecdiv c)])].

(** ** Polyhedron: src/zeo_ph3d.c 490-700 *)
(** the polyhedron and the array of loop vertices *)
Record phz := PZ { zph : ph3; zarr : list vec3 }.
Fixpoint set_nth {A} (l : list A) (i : nat) (a : A) : option (list A) :=
  match l, i with
  | [], _ => None
  | _ :: l, O => Some (a :: l)
  | x :: l, S i => match set_nth l i a with Some l => Some (x :: l) | None => None end
  end.
(** 490-512: the number in the file is only compared for a warning *)
Definition phVert (s : phz) (i : nat) (v : list tok) : rd phz :=
  match zVec3DFromZTK (snd (ZTKInt v)) with
  | Some (p, _) =>
      match zarr s with
      | [] => match set_nth (pverts (zph s)) i p with Some vs => ROk (PZ (PH vs (pfaces (zph s))) []) | None => RUndef end
      | _ => match set_nth (zarr s) i p with Some a => ROk (PZ (zph s) a) | None => RUndef end
      end
  | None => RUndef
  end.
(** 514-538: too large a number is refused, a negative one is not *)
Definition phFace (s : phz) (i : nat) (v : list tok) : rd phz :=
  let n := Z.of_nat (length (pverts (zph s))) in
  let '(i0, v) := ZTKInt v in if Z.leb n i0 then RFail s else
  let '(i1, v) := ZTKInt v in if Z.leb n i1 then RFail s else
  let '(i2, v) := ZTKInt v in if Z.leb n i2 then RFail s else
  if Z.ltb i0 0 || Z.ltb i1 0 || Z.ltb i2 0 then RUndef
  else let a := Z.to_nat i0 in let b := Z.to_nat i1 in let c := Z.to_nat i2 in
  match nth_error (pverts (zph s)) a, nth_error (pverts (zph s)) b, nth_error (pverts (zph s)) c with
  | Some p, Some q, Some r =>
      match set_nth (pfaces (zph s)) i (FC a b c (tnorm (snd (zTri3DCreate p q r)))) with
      | Some fs => ROk (PZ (PH (pverts (zph s)) fs) (zarr s))
      | None => RUndef
      end
  | _, _, _ => RUndef
  end.
(** src/zeo_misc.c 9, 22-32 *)
Definition zAxisFromStr (s : string) : option nat :=
  if String.eqb s "x" then Some 0%nat else if String.eqb s "y" then Some 1%nat else if String.eqb s "z" then Some 2%nat
  else if String.eqb s "tilt" then Some 3%nat else if String.eqb s "elev" then Some 4%nat else if String.eqb s "azim" then Some 5%nat else None.
(** 585-635: the vertices of a loop on a coordinate plane; arcs (540-583) are left out *)
Fixpoint loopPts (fuel : nat) (v : list tok) : option (list vec2) :=
  match fuel with
  | O => None
  | S fuel =>
      match v with
      | [] => Some []
      | TWord _ :: _ => None
      | _ => let '(a, v) := ZTKDouble v in let '(b, v) := ZTKDouble v in
             match loopPts fuel v with Some l => Some (V2 a b :: l) | None => None end
      end
  end.
Definition onPlane (axis : nat) (h : R) (p : vec2) : vec3 :=
  match axis with 0%nat => V3 h (x2 p) (y2 p) | 1%nat => V3 (y2 p) h (x2 p) | _ => V3 (x2 p) (y2 p) h end.
Definition phLoop (s : phz) (_ : nat) (v : list tok) : rd phz :=
  match v with
  | TWord w :: v =>
      match zAxisFromStr w with
      | Some axis =>
          if Nat.ltb 2 axis then RFail s else
          match v with
          | [] => RFail s
          | _ => let '(h, v) := ZTKDouble v in
                 match loopPts (S (length v)) v with
                 | Some l => ROk (PZ (zph s) (map (onPlane axis h) l))
                 | None => RUndef
                 end
          end
      | None => RFail s
      end
  | _ => RUndef
  end.
(** 637-669 *)
Definition phSweep (create : list vec3 -> vec3 -> option (option ph3)) (s : phz) (_ : nat) (v : list tok) : rd phz :=
  match pverts (zph s), pfaces (zph s) with
  | [], [] =>
      match zVec3DFromZTK v with
      | Some (p, _) =>
          match create (zarr s) p with
          | Some (Some ph) => ROk (PZ ph [])
          | Some None => RFail (PZ (zph s) [])
          | None => RUndef
          end
      | None => RUndef
      end
  | _, _ => ROk s
  end.
Definition phPrp : list (prp phz) := [
  PRP "vert" None phVert; PRP "face" None phFace; PRP "loop" (Some 1%nat) phLoop;
  PRP "prism" (Some 1%nat) (phSweep zPH3DCreatePrism); PRP "pyramid" (Some 1%nat) (phSweep zPH3DCreatePyramid)].
Definition rdmap {A B} (g : A -> B) (r : rd A) : rd B :=
  match r with ROk a => ROk (g a) | RFail a => RFail (g a) | RUndef => RUndef end.
(** the contents of allocated arrays before they are set *)
Definition vert0 : vec3 := ZVEC3DZERO.
Definition face0 : face := FC 0 0 0 ZVEC3DZERO.
(** 679-711 *)
Definition zPH3DFromZTK (d : sect) : rd ph3 :=
  match d with
  | [] => RFail (PH [] [])
  | _ =>
      let nv := ZTKCountKey "vert" d in let nf := ZTKCountKey "face" d in
      if Nat.ltb 0 (ZTKCountKey "prism" d) || Nat.ltb 0 (ZTKCountKey "pyramid" d) then
        if Nat.ltb 0 nf then RFail (PH [] [])
        else rdmap zph (ZTKEvalKey phPrp (PZ (PH [] []) (repeat vert0 nv)) d)
      else rdmap zph (ZTKEvalKey phPrp (PZ (PH (repeat vert0 nv) (repeat face0 nf)) []) d)
  end.
(** 714-730 *)
Definition zPH3DFPrintZTK (ph : ph3) : sect :=
  map (fun iv => ("vert", TInt (Z.of_nat (fst iv)) :: zVec3DFPrint (snd iv))) (combine (seq 0 (length (pverts ph))) (pverts ph)) ++
  (match pverts ph with [] => [] | _ =>
     map (fun f => ("face", [TInt (Z.of_nat (fi0 f)); TInt (Z.of_nat (fi1 f)); TInt (Z.of_nat (fi2 f))])) (pfaces ph) end).

(** ** Shapes: src/zeo_shape3d.c *)
(** a shape: name, kind and body, attached optical property and texture (the
    numbers of array elements for the pointers) *)
Record shape := SH { hname : option string; hbody : option shape3; hoptic : option nat; htex : option nat }.
(** 14-23 *)
Definition zShape3DInit : shape := SH None None None None.
Definition NONAME : string := "(noname)".
Definition zName (n : option string) : string := match n with Some s => s | None => NONAME end.
(** ZEDA zArrayFindName: the first element of that name *)
Fixpoint findName (l : list (option string)) (s : string) : option nat :=
  match l with
  | [] => None
  | n :: l => if String.eqb (zName n) s then Some 0%nat else option_map S (findName l s)
  end.
(** zeo_shape3d.h 349-357, zeo_shape3d.c 26-36: an allocated body is filled with zeros *)

Definition zeroF : frame3 := F3 ZVEC3DZERO ZMAT3DZERO.
Definition zShape3DQueryAssign (s : string) : rd shape3 :=
  if String.eqb s "polyhedron" then ROk (ShPH (PH [] []))
  else if String.eqb s "box" then ROk (ShBox (BX zeroF ZVEC3DZERO))
  else if String.eqb s "sphere" then ROk (ShSphere (SP ZVEC3DZERO 0 0))
  else if String.eqb s "ellipsoid" then ROk (ShEllips (EL ZVEC3DZERO zeroF 0))
  else if String.eqb s "cylinder" then ROk (ShCyl (CY ZVEC3DZERO ZVEC3DZERO 0 0))
  else if String.eqb s "capsule" then ROk (ShCapsule (CY ZVEC3DZERO ZVEC3DZERO 0 0))
  else if String.eqb s "ellipticcylinder" then ROk (ShECyl (EC ZVEC3DZERO ZVEC3DZERO 0 0 ZVEC3DZERO ZVEC3DZERO 0))
  else if String.eqb s "cone" then ROk (ShCone (CN ZVEC3DZERO ZVEC3DZERO 0 0))
  else if String.eqb s "nurbs" then RUndef (* surfaces are left out *)
  else RFail (ShPH (PH [] [])).
Definition typestr (b : shape3) : string :=
  match b with ShBox _ => "box" | ShSphere _ => "sphere" | ShEllips _ => "ellipsoid" | ShCyl _ => "cylinder"
  | ShECyl _ => "ellipticcylinder" | ShCapsule _ => "capsule" | ShCone _ => "cone" | ShPH _ => "polyhedron" end.
(** the [_mirror] methods; [None] is an uninitialised value or an invalid pointer *)
Definition bodyMirror (b : shape3) (axis : nat) : option shape3 :=
  match b with
  | ShBox b => option_map ShBox (zBox3DMirror b axis) | ShSphere s => Some (ShSphere (zSphere3DMirror s axis))
  | ShEllips e => Some (ShEllips (zEllips3DMirror e axis)) | ShCyl c => Some (ShCyl (zCyl3DMirror c axis))
  | ShECyl c => Some (ShECyl (zECyl3DMirror c axis)) | ShCapsule c => Some (ShCapsule (zCyl3DMirror c axis))
  | ShCone c => Some (ShCone (zCone3DMirror c axis)) | ShPH p => option_map ShPH (zPH3DMirror p axis)
  end.
(** the [_xform] methods (source and destination may coincide: every function
    goes through temporaries) *)
Definition bodyXform (b : shape3) (f : frame3) : option shape3 :=
  match b with
  | ShBox b => Some (ShBox (zBox3DXform b f)) | ShSphere s => Some (ShSphere (zSphere3DXform s f))
  | ShEllips e => Some (ShEllips (zEllips3DXform e f)) | ShCyl c => Some (ShCyl (zCyl3DXform c f))
  | ShECyl c => Some (ShECyl (zECyl3DXform c f)) | ShCapsule c => Some (ShCapsule (zCyl3DXform c f))
  | ShCone c => Some (ShCone (zCone3DXform c f)) | ShPH p => option_map ShPH (zPH3DXform p f)
  end.
(** 64-79: a destination that has a kind is destroyed first, with its name and
    attachments *)
Definition zShape3DMirror (src dest : shape) (axis : option nat) : rd shape :=
  let dest := match hbody dest with Some _ => SH None (hbody dest) None None | None => dest end in
  match axis with
  | Some a =>
      if Nat.ltb 2 a then RFail dest else
      match hbody src with
      | None => RUndef
      | Some b => match bodyMirror b a with
                  | Some b => ROk (SH (hname dest) (Some b) (hoptic src) (htex src))
                  | None => RUndef
                  end
      end
  | None => RFail dest
  end.
(** the [_fromZTK] and [_fprintZTK] methods *)
Definition bodyFromZTK (b : shape3) (d : sect) : rd shape3 :=
  match b with
  | ShBox _ => rdmap ShBox (ZTKEvalKey boxPrp zBox3DInit d)
  | ShSphere _ => rdmap ShSphere (ZTKEvalKey spherePrp zSphere3DInit d)
  | ShEllips _ => rdmap ShEllips (ZTKEvalKey ellipsPrp zEllips3DInit d)
  | ShCyl _ => rdmap ShCyl (ZTKEvalKey cylPrp zCyl3DInit d)
  | ShECyl _ => rdmap ShECyl (ZTKEvalKey ecylPrp zECyl3DInit d)
  | ShCapsule _ => rdmap ShCapsule (ZTKEvalKey cylPrp zCyl3DInit d)
  | ShCone _ => rdmap ShCone (ZTKEvalKey conePrp zCone3DInit d)
  | ShPH _ => rdmap ShPH (zPH3DFromZTK d)
  end.
Definition bodyFPrintZTK (b : shape3) : sect :=
  match b with
  | ShBox b => zBox3DFPrintZTK b | ShSphere s => zSphere3DFPrintZTK s | ShEllips e => zEllips3DFPrintZTK e
  | ShCyl c => zCyl3DFPrintZTK c | ShECyl c => zECyl3DFPrintZTK c | ShCapsule c => zCyl3DFPrintZTK c
  | ShCone c => zCone3DFPrintZTK c | ShPH p => zPH3DFPrintZTK p
  end.
(** 305-312: the state of the key loop *)
Record sst := ST { sshape : shape; simp : bool; sfrm : frame3; sxf : bool }.
Section Shape.
  (** the arrays to look names up in ([None]: no array was given) *)
  Variables (sarr : option (list shape)) (onames tnames : option (list (option string))).
  Definition onShape (g : shape -> rd shape) (s : sst) : rd sst :=
    rdmap (fun h => ST h (simp s) (sfrm s) (sxf s)) (g (sshape s)).
  Definition findShape (w : string) : option nat := match sarr with Some l => findName (map hname l) w | None => None end.
  (** 314-326 *)
  Definition shName (s : sst) (_ : nat) (v : list tok) : rd sst :=
    match ZTKVal v with
    | Some w => onShape (fun h => match findShape w with Some _ => RFail h | None => ROk (SH (Some w) (hbody h) (hoptic h) (htex h)) end) s
    | None => RUndef
    end.
  (** 327-329 *)
  Definition shType (s : sst) (_ : nat) (v : list tok) : rd sst :=
    match ZTKVal v with
    | Some w => onShape (fun h => match zShape3DQueryAssign w with
                                  | ROk b => ROk (SH (hname h) (Some b) (hoptic h) (htex h))
                                  | RFail _ => RFail (SH (hname h) None (hoptic h) (htex h))
                                  | RUndef => RUndef end) s
    | None => RUndef
    end.
  (** 330-343: an unknown name gives a warning *)
  Definition shOptic (s : sst) (_ : nat) (v : list tok) : rd sst :=
    match ZTKVal v with
    | Some w => onShape (fun h => ROk (SH (hname h) (hbody h) (match onames with Some l => findName l w | None => hoptic h end) (htex h))) s
    | None => RUndef
    end.
  Definition shTex (s : sst) (_ : nat) (v : list tok) : rd sst :=
    match ZTKVal v with
    | Some w => onShape (fun h => ROk (SH (hname h) (hbody h) (hoptic h) (match tnames with Some l => findName l w | None => htex h end))) s
    | None => RUndef
    end.
  (** 344-356 *)
  Definition shMirror (s : sst) (_ : nat) (v : list tok) : rd sst :=
    match ZTKVal v with
    | Some w =>
        match sarr, findShape w with
        | Some l, Some i =>
            match nth_error l i, v with
            | Some ref, _ :: TWord a :: _ =>
                match zShape3DMirror ref (sshape s) (zAxisFromStr a) with
                | ROk h => ROk (ST h true (sfrm s) (sxf s))
                | RFail h => RFail (ST h (simp s) (sfrm s) (sxf s))
                | RUndef => RUndef
                end
            | Some _, [_] => RFail s
            | _, _ => RUndef
            end
        | _, _ => ROk s
        end
    | None => RUndef
    end.
  (** 368-393 *)
  Definition setF (s : sst) (f : frame3) : rd sst := ROk (ST (sshape s) (simp s) f true).
  Definition shPos (s : sst) (_ : nat) (v : list tok) : rd sst :=
    match zVec3DFromZTK v with Some (p, _) => setF s (F3 p (fatt (sfrm s))) | None => RUndef end.
  Definition shAtt (s : sst) (_ : nat) (v : list tok) : rd sst :=
    match zMat3DFromZTK v with Some m => setF s (F3 (fpos (sfrm s)) m) | None => RUndef end.
  Definition shRot (s : sst) (_ : nat) (v : list tok) : rd sst :=
    match zAAFromZTK v with Some aa => setF s (F3 (fpos (sfrm s)) (zMat3DRot (fatt (sfrm s)) aa)) | None => RUndef end.
  Definition shFrame (s : sst) (_ : nat) (v : list tok) : rd sst :=
    match zFrame3DFromZTK v with Some f => setF s f | None => RUndef end.
  (** 418-429; importing other files (357-365) is left out *)
  Definition shapePrp : list (prp sst) := [
    PRP "name" (Some 1%nat) shName; PRP "type" (Some 1%nat) shType; PRP "optic" (Some 1%nat) shOptic; PRP "texture" (Some 1%nat) shTex;
    PRP "mirror" (Some 1%nat) shMirror; PRP "import" (Some 1%nat) (fun _ _ _ => RUndef);
    PRP "pos" (Some 1%nat) shPos; PRP "att" (Some 1%nat) shAtt; PRP "rot" None shRot; PRP "frame" (Some 1%nat) shFrame].
  Definition withBody (h : shape) (b : shape3) : shape := SH (hname h) (Some b) (hoptic h) (htex h).
  (** 432-457 *)
  Definition shXform (h : shape) (s : sst) : rd shape :=
    if sxf s then
      match hbody h with
      | Some b => match bodyXform b (sfrm s) with Some b => ROk (withBody h b) | None => RUndef end
      | None => RUndef
      end
    else ROk h.
  Definition zShape3DFromZTK (d : sect) : rd shape :=
    match ZTKEvalKey shapePrp (ST zShape3DInit false ZFRAME3DIDENT false) d with
    | RUndef => RUndef
    | RFail s => RFail (sshape s)
    | ROk s =>
        if simp s then shXform (sshape s) s
        else match hbody (sshape s) with
             | None => RFail (sshape s)
             | Some b =>
                 match bodyFromZTK b d with
                 | RUndef => RUndef
                 | RFail b => RFail (withBody (sshape s) b)
                 | ROk b => shXform (withBody (sshape s) b) s
                 end
             end
    end.
  (** 395-416, 460-466; the optical property and the texture are those of the arrays *)
  Definition refName (names : option (list (option string))) (i : option nat) : option (option string) :=
    match names, i with Some l, Some i => nth_error l i | _, _ => None end.
  Definition zShape3DFPrintZTK (h : shape) : option sect :=
    match hbody h with
    | None => None
    | Some b => Some (
        [("name", [TWord (zName (hname h))]); ("type", [TWord (typestr b)])] ++
        (match refName onames (hoptic h) with Some n => [("optic", [TWord (zName n)])] | None => [] end) ++
        (match refName tnames (htex h) with Some n => [("texture", [TWord (zName n)])] | None => [] end) ++
        bodyFPrintZTK b)
    end.
End Shape.

(** ** Textures: src/zeo_render_texture.c *)
(** the faces are numbers of coordinates; identifiers and image sizes are set by
    callbacks and left out *)
Record texture := TX { xname : option string; xfile : option string; xbump : bool; xcoord : list vec2; xface : list (nat * nat * nat); xdepth : R }.
Definition zTextureInit : texture := TX None None false [] [] 1.
(** 50-67: the arrays are allocated, their contents and the depth are not
    copied; [None] is the null pointer: no file name, or an array of no element
    (whose buffer is null) *)
Definition zTextureClone (t : texture) : option texture :=
  match xfile t, xcoord t, xface t with
  | Some f, _ :: _, _ :: _ => Some (TX (xname t) (Some f) (xbump t) (repeat (V2 0 0) (length (xcoord t))) (repeat (0, 0, 0)%nat (length (xface t))) 1)
  | _, _, _ => None
  end.
Definition txName (t : texture) (_ : nat) (v : list tok) : rd texture :=
  match ZTKVal v with Some w => ROk (TX (Some w) (xfile t) (xbump t) (xcoord t) (xface t) (xdepth t)) | None => RUndef end.
Definition txFile (t : texture) (_ : nat) (v : list tok) : rd texture :=
  match ZTKVal v with Some w => ROk (TX (xname t) (Some w) (xbump t) (xcoord t) (xface t) (xdepth t)) | None => RUndef end.
Definition txType (t : texture) (_ : nat) (v : list tok) : rd texture :=
  match ZTKVal v with Some w => ROk (TX (xname t) (xfile t) (String.eqb w "bump") (xcoord t) (xface t) (xdepth t)) | None => RUndef end.
(** 103-106: depth 0 is taken for an error *)
Definition txDepth (t : texture) (_ : nat) (v : list tok) : rd texture :=
  let t' := TX (xname t) (xfile t) (xbump t) (xcoord t) (xface t) (num1 v) in
  if Req_EM_T (num1 v) 0 then RFail t' else ROk t'.
Definition txCoord (t : texture) (i : nat) (v : list tok) : rd texture :=
  match zVec2DFromZTK (snd (ZTKInt v)) with
  | Some (p, _) => match set_nth (xcoord t) i p with Some l => ROk (TX (xname t) (xfile t) (xbump t) l (xface t) (xdepth t)) | None => RUndef end
  | None => RUndef
  end.
Definition txFace (t : texture) (i : nat) (v : list tok) : rd texture :=
  let n := Z.of_nat (length (xcoord t)) in
  let '(i0, v) := ZTKInt v in if Z.leb n i0 then RFail t else
  let '(i1, v) := ZTKInt v in if Z.leb n i1 then RFail t else
  let '(i2, v) := ZTKInt v in if Z.leb n i2 then RFail t else
  if Z.ltb i0 0 || Z.ltb i1 0 || Z.ltb i2 0 then RUndef
  else match set_nth (xface t) i (Z.to_nat i0, Z.to_nat i1, Z.to_nat i2) with
       | Some l => ROk (TX (xname t) (xfile t) (xbump t) (xcoord t) l (xdepth t))
       | None => RUndef
       end.
(** 170-177 *)
Definition texPrp : list (prp texture) := [
  PRP "name" (Some 1%nat) txName; PRP "file" (Some 1%nat) txFile; PRP "type" (Some 1%nat) txType; PRP "depth" (Some 1%nat) txDepth;
  PRP "coord" None txCoord; PRP "face" None txFace].
(** 180-211 *)
Definition zTextureFromZTK (d : sect) : rd texture :=
  let nc := ZTKCountKey "coord" d in
  if Nat.eqb nc 0 then RFail zTextureInit
  else ZTKEvalKey texPrp (TX None None false (repeat (V2 0 0) nc) (repeat (0, 0, 0)%nat (ZTKCountKey "face" d)) 1) d.
(** 145-168, 214-230; a null file name is undefined for [fprintf] *)
Definition zTextureFPrintZTK (t : texture) : option sect :=
  match xfile t with
  | None => None
  | Some f => Some (
      [("name", [TWord (zName (xname t))]); ("file", [TWord f]); ("type", [TWord (if xbump t then "bump" else "color")])] ++
      (if xbump t then [("depth", [TNum (xdepth t)])] else []) ++
      map (fun iv => ("coord", TInt (Z.of_nat (fst iv)) :: zVec2DFPrint (snd iv))) (combine (seq 0 (length (xcoord t))) (xcoord t)) ++
      map (fun f => ("face", [TInt (Z.of_nat (fst (fst f))); TInt (Z.of_nat (snd (fst f))); TInt (Z.of_nat (snd f))])) (xface t))
  end.

(** ** Files of several shapes: src/zeo_multishape3d.c *)
Inductive section := SecOptic (z : ztk) | SecTex (d : sect) | SecShape (d : sect) | SecOther.
Record mshape := MS { moptic : list optic; mtex : list texture; mshp : list shape }.
Definition onameS (o : optic) : option string := option_map string_of_list_ascii (oname o).
(** one tag: 228-239.  The element filled is the one of the number of the
    occurrence *)
Section Multi.
  Variable scan : list ascii -> option (R * R * R).
  Definition secFromZTK (m : mshape) (io it is_ : nat) (s : section) : rd mshape :=
    match s with
    | SecOptic z =>
        match zOpticalInfoFromZTK scan z with
        | Some o => match set_nth (moptic m) io o with Some l => ROk (MS l (mtex m) (mshp m)) | None => RUndef end
        | None => RFail m
        end
    | SecTex d =>
        let put g t := match set_nth (mtex m) it t with Some l => g (MS (moptic m) l (mshp m)) | None => RUndef end in
        match zTextureFromZTK d with ROk t => put ROk t | RFail t => put RFail t | RUndef => RUndef end
    | SecShape d =>
        let put g h := match set_nth (mshp m) is_ h with Some l => g (MS (moptic m) (mtex m) l) | None => RUndef end in
        match set_nth (mshp m) is_ zShape3DInit with
        | None => RUndef
        | Some cur =>
            match zShape3DFromZTK (Some cur) (Some (map onameS (moptic m))) (Some (map xname (mtex m))) d with
            | ROk h => put ROk h | RFail h => put RFail h | RUndef => RUndef
            end
        end
    | SecOther => ROk m
    end.
  Fixpoint evalTags (m : mshape) (io it is_ : nat) (doc : list section) : rd mshape :=
    match doc with
    | [] => ROk m
    | s :: doc =>
        match secFromZTK m io it is_ s with
        | ROk m =>
            match s with
            | SecOptic _ => evalTags m (S io) it is_ doc
            | SecTex _ => evalTags m io (S it) is_ doc
            | SecShape _ => evalTags m io it (S is_) doc
            | SecOther => evalTags m io it is_ doc
            end
        | r => r
        end
    end.
  Definition isOptic (s : section) := match s with SecOptic _ => true | _ => false end.
  Definition isTex (s : section) := match s with SecTex _ => true | _ => false end.
  Definition isShape (s : section) := match s with SecShape _ => true | _ => false end.
  (** an optical property in an allocated array *)
  Definition optic0 : optic := Optic None (RGB 0 0 0) (RGB 0 0 0) (RGB 0 0 0) 0 0 0.
  Definition ms0 (doc : list section) : mshape :=
    MS (repeat optic0 (length (filter isOptic doc))) (repeat zTextureInit (length (filter isTex doc))) (repeat zShape3DInit (length (filter isShape doc))).
  (** 265-289: the outcome of the evaluation is not looked at *)
  Definition zMultiShape3DFromZTK (doc : list section) : rd mshape :=
    if Nat.eqb (length (filter isShape doc)) 0 then RFail (MS [] [] [])
    else match evalTags (ms0 doc) 0 0 0 doc with
         | ROk m | RFail m => ROk m
         | RUndef => RUndef
         end.
End Multi.
Definition opticPrint (o : optic) : section :=
  SecOptic (zOpticalInfoFPrintZTK o (match oname o with Some n => n | None => list_ascii_of_string NONAME end)).
(** 292-310 *)
Definition zMultiShape3DFPrintZTK (m : mshape) : option (list section) :=
  match mapM zTextureFPrintZTK (mtex m), mapM (zShape3DFPrintZTK (Some (map onameS (moptic m))) (Some (map xname (mtex m)))) (mshp m) with
  | Some ts, Some hs => Some (map opticPrint (moptic m) ++ map SecTex ts ++ map SecShape hs)
  | _, _ => None
  end.
(** ** Copies: zeo_shape3d.c 49-61, zeo_multishape3d.c 41-70 *)
Definition bodyClone (b : shape3) : option shape3 :=
  match b with
  | ShBox b => option_map ShBox (zBox3DCopy b) | ShSphere s => Some (ShSphere (zSphere3DCopy s))
  | ShEllips e => Some (ShEllips (zEllips3DCopy e)) | ShPH p => option_map ShPH (zPH3DClone p)
  | ShCyl c => Some (ShCyl (zCyl3DCopy c)) | ShECyl c => Some (ShECyl c)
  | ShCapsule c => Some (ShCapsule (zCyl3DCopy c)) | ShCone c => Some (ShCone (CN (kcen c) (kvert c) (krad c) (kdiv c)))
  end.
(** a pointer of the copy: into the arrays of the copy or into those of the original *)
Inductive owner := InCopy | InOriginal.
Record cshape := CS { csname : option string; csbody : option shape3; csoptic : owner * nat; cstex : option (owner * nat) }.
(** the copy takes the optical property it is given; its texture stays the one
    of the source *)
Definition zShape3DClone (h : shape) (oi : owner * nat) : option cshape :=
  match hbody h with
  | Some b => match bodyClone b with
              | Some b => Some (CS (Some (zName (hname h))) (Some b) oi (option_map (fun i => (InOriginal, i)) (htex h)))
              | None => None
              end
  | None => None
  end.
Record mclone := MC { coptics : list optic; ctexs : list texture; cshapes : list cshape }.
(** zeo_render_optic.c 40-44 *)
Definition zOpticalInfoClone (o : optic) : optic :=
  Optic (Some (match oname o with Some n => n | None => list_ascii_of_string NONAME end)) (ambient o) (diffuse o) (specular o) (esr o) (shininess o) (alpha o).
(** the number of the optical property is the distance of its address from the
    start of the array; a null pointer has none.  [None]: undefined behaviour, or
    a body that cannot be copied; [Some None]: the null pointer *)
Definition zMultiShape3DClone (m : mshape) : option (option mclone) :=
  match mapM zTextureClone (mtex m) with
  | None => Some None
  | Some ts =>
      match mapM (fun h => match hoptic h with Some i => zShape3DClone h (InCopy, i) | None => None end) (mshp m) with
      | Some hs => Some (Some (MC (map zOpticalInfoClone (moptic m)) ts hs))
      | None => None
      end
  end.

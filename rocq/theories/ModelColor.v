(** Model of colours and optical properties (src/zeo_render_color.c,
    src/zeo_render_optic.c and their headers).  [float] and [double] are
    idealised as real numbers, and so is the decimal text written for a number.
    [None] is an undefined outcome: a division by zero, an uninitialised
    variable, or a character outside the documented alphabet.  C strings are
    lists of characters without the terminator. *)
From Verif Require Import Base SpecColor.
From Coq Require Import List Ascii String NArith ZArith Lra.
Import ListNotations.
Open Scope R_scope.

(** ZM's [_zLimit(x,min,max)] *)
Definition zLimit (x mn mx : R) : R := if Rltb x mn then mn else if Rltb mx x then mx else x.

(** zeo_render_color.h 52-54: [zRGBIsZero] with [ZRGB_TOL] 1e-6 *)
Definition ZRGB_TOL : R := / 1000000.
Definition zRGBIsZero (c : rgb) : bool :=
  zIsTol (cr c) ZRGB_TOL && zIsTol (cg c) ZRGB_TOL && zIsTol (cb c) ZRGB_TOL.

(** zeo_render_color.c 16-21: the constants *)
Definition zrgbblack : rgb := RGB 0 0 0.
Definition zrgbwhite : rgb := RGB 1 1 1.

(** zeo_render_color.c 24-30: [zRGBSet] *)
Definition zRGBSet (r g b : R) : rgb := RGB (zLimit r 0 1) (zLimit g 0 1) (zLimit b 0 1).

(** zeo_render_color.h 81-82: [zGS], [zGSSet]; zeo_render_color.c 40-44: [zRGBToGS] *)
Definition zGS (c : rgb) : R := (cr c + cg c + cb c) / 3.
Definition zGSSet (x : R) : rgb := RGB x x x.
Definition zRGBToGS (c : rgb) : rgb := zGSSet (zGS c).

(** zeo_render_color.c 47-50: [zRGBMul] *)
Definition zRGBMul (c1 c2 : rgb) : rgb := zRGBSet (cr c1 * cr c2) (cg c1 * cg c2) (cb c1 * cb c2).

(** zeo_render_color.c 53-62: [zRGBBlend]; the ratio is not limited here *)
Definition zRGBBlend (c1 c2 : rgb) (ratio : R) : rgb :=
  let rn := 1 - ratio in
  RGB (ratio * cr c1 + rn * cr c2) (ratio * cg c1 + rn * cg c2) (ratio * cb c1 + rn * cb c2).

(** zeo_render_color.c 65-71: [_zRGBRatio].  What [sscanf] finds is a
    parameter: fewer than three numbers leave a variable uninitialised *)
Definition zRGBRatio (scan : list ascii -> option (R * R * R)) (s : list ascii) : option rgb :=
  match scan s with Some (r, g, b) => Some (zRGBSet r g b) | None => None end.

(** ZEDA's [zA2X_c] on the documented alphabet 0-9, a-f, A-F *)
Definition zA2X_c (c : ascii) : option N :=
  let k := N_of_ascii c in
  if (48 <=? k)%N && (k <=? 57)%N then Some (k - 48)%N
  else if (97 <=? k)%N && (k <=? 102)%N then Some (k - 97 + 10)%N
  else if (65 <=? k)%N && (k <=? 70)%N then Some (k - 65 + 10)%N
  else None.

(** 32-bit unsigned arithmetic of the loop of [_zRGBHex] *)
Definition shl4 (r : N) : N := (N.shiftl r 4 mod 2 ^ 32)%N.
Definition push (r : N) (x : N) : N := N.lor (shl4 r) x.
Definition getx (hex : list ascii) (i : nat) : option N :=
  match nth_error hex i with Some c => zA2X_c c | None => None end.

(** zeo_render_color.c 74-90: [_zRGBHex]; the loop, [len] counted down and [i]
    up; the warning about the length has no effect on the result *)
Fixpoint hex_loop (hex : list ascii) (len k i : nat) (r g b d : N) : option (N * N * N * N) :=
  match k with
  | O => Some (r, g, b, d)
  | S k' =>
    match getx hex i, getx hex (i + len), getx hex (i + len * 2) with
    | Some x, Some y, Some z => hex_loop hex len k' (S i) (push r x) (push g y) (push b z) (push d 15)
    | _, _, _ => None
    end
  end.
Definition rat (r d : N) : option R :=
  if (d =? 0)%N then None else Some (IZR (Z.of_N r) / IZR (Z.of_N d)).
Definition zRGBHex (hex : list ascii) : option rgb :=
  let len := (List.length hex / 3)%nat in
  match hex_loop hex len len 0 0 0 0 0 with
  | Some (r, g, b, d) =>
    match rat r d, rat g d, rat b d with
    | Some x, Some y, Some z => Some (zRGBSet x y z)
    | _, _, _ => None
    end
  | None => None
  end.

(** zeo_render_color.c 93-96: [zRGBDecodeStr] *)
Definition zRGBDecodeStr (scan : list ascii -> option (R * R * R)) (s : list ascii) : option rgb :=
  match s with
  | c :: t => if Ascii.eqb c "#"%char then zRGBHex t else zRGBRatio scan s
  | [] => zRGBRatio scan s
  end.

(** zeo_render_color.c 99-127: [zRGBByName]; [None] is the null pointer *)
Definition str_eqb (a b : list ascii) : bool := if list_eq_dec Ascii.ascii_dec a b then true else false.
Definition color_table : list (list ascii * (R * R * R)) :=
  [(str "black", (0, 0, 0)); (str "red", (1, 0, 0)); (str "green", (0, 1, 0)); (str "blue", (0, 0, 1));
   (str "yellow", (1, 1, 0)); (str "cyan", (0, 1, 1)); (str "magenta", (1, 0, 1)); (str "white", (1, 1, 1))].
Fixpoint find_name (table : list (list ascii * (R * R * R))) (n : list ascii) : rgb :=
  match table with
  | [] => zrgbblack
  | (k, (r, g, b)) :: t => if str_eqb k n then zRGBSet r g b else find_name t n
  end.
Definition zRGBByName (name : option (list ascii)) : rgb :=
  match name with
  | None => zrgbblack
  | Some n => find_name color_table n
  end.

(** zeo_render_color.c 130-133: [zRGBByStr] *)
Definition isdigit (c : ascii) : bool := (48 <=? N_of_ascii c)%N && (N_of_ascii c <=? 57)%N.
Definition zRGBByStr (scan : list ascii -> option (R * R * R)) (s : option (list ascii)) : option rgb :=
  match s with
  | Some (c :: t) => if Ascii.eqb c "#"%char || isdigit c then zRGBDecodeStr scan (c :: t) else Some (zRGBByName s)
  | _ => Some (zRGBByName s)
  end.

(** zeo_render_color.c 177-214: [zRGB2HSV] *)
Definition zRGB2HSV (c : rgb) : hsv :=
  let '(mx, mn, phase, phase0) :=
    if Rltb (cg c) (cr c) then
      if Rltb (cb c) (cr c) then (cr c, Rmin (cg c) (cb c), cg c - cb c, 0)
      else (cb c, cg c, cr c - cg c, 240)
    else
      if Rltb (cb c) (cg c) then (cg c, Rmin (cr c) (cb c), cb c - cr c, 120)
      else (cb c, cr c, cr c - cg c, 240) in
  let d := mx - mn in
  let h := if Reqb d 0 then 0 else 60 * phase / d + phase0 in
  let h := if Rltb h 0 then h + 360 else h in
  HSV h (if Reqb mx 0 then 0 else d / mx) mx.

(** zeo_render_color.c 217-238: [zHSV2RGB]; [old] is the previous content of
    the result, kept by the empty [default] case.  The conversion to [int] is
    taken to be exact; [%] truncates towards zero *)
Definition zHSV2RGB (x : hsv) (old : rgb) : rgb :=
  let h := hue x / 60 in
  let i := Z.rem (Int_part h) 6 in
  let f := h - IZR i in
  let p := val x * (1 - sat x) in
  let q := val x * (1 - f * sat x) in
  let t := val x * (1 - (1 - f) * sat x) in
  match i with
  | 0%Z => zRGBSet (val x) t p
  | 1%Z => zRGBSet q (val x) p
  | 2%Z => zRGBSet p (val x) t
  | 3%Z => zRGBSet p q (val x)
  | 4%Z => zRGBSet t p (val x)
  | 5%Z => zRGBSet (val x) p q
  | _ => old
  end.

(** * Optical properties *)

(** zeo_render_optic.h 17-24 *)
Record optic := Optic {
  oname : option (list ascii);
  ambient : rgb; diffuse : rgb; specular : rgb;
  esr : R; shininess : R; alpha : R }.

(** zeo_render_optic.c 15-25: [zOpticalInfoCreate]; header 71-74: [zOpticalInfoCreateSimple], [zOpticalInfoInit] *)
Definition zOpticalInfoCreate (ar ag ab dr dg db sr sg sb e s a : R) (name : option (list ascii)) : optic :=
  Optic name (zRGBSet ar ag ab) (zRGBSet dr dg db) (zRGBSet sr sg sb) e s a.
Definition zOpticalInfoCreateSimple (r g b : R) (name : option (list ascii)) : optic :=
  zOpticalInfoCreate (1/2 * r) (1/2 * g) (1/2 * b) r g b 0 0 0 0 0 1 name.
Definition zOpticalInfoInit : optic := zOpticalInfoCreate 1 1 1 1 1 1 1 1 1 0 0 1 None.

(** zeo_render_optic.c 28-37: [zOpticalInfoCopy] leaves the name of the destination; 40-44: [zOpticalInfoClone] *)
Definition zOpticalInfoCopy (src dest : optic) : optic :=
  Optic (oname dest) (ambient src) (diffuse src) (specular src) (esr src) (shininess src) (alpha src).

(** zeo_render_optic.c 47-56: [zOpticalInfoMul]; [old] gives the name *)
Definition zOpticalInfoMul (o1 o2 old : optic) : optic :=
  Optic (oname old)
        (zRGBMul (ambient o1) (ambient o2)) (zRGBMul (diffuse o1) (diffuse o2)) (zRGBMul (specular o1) (specular o2))
        (esr o1 * esr o2) (shininess o1 * shininess o2) (alpha o1 * alpha o2).

(** zeo_render_optic.c 59-73: [zOpticalInfoBlend] *)
Definition zOpticalInfoBlend (o1 o2 : optic) (ratio : R) (name : option (list ascii)) : optic :=
  let ratio := zLimit ratio 0 1 in
  let rn := 1 - ratio in
  Optic name
        (zRGBBlend (ambient o1) (ambient o2) ratio) (zRGBBlend (diffuse o1) (diffuse o2) ratio) (zRGBBlend (specular o1) (specular o2) ratio)
        (ratio * esr o1 + rn * esr o2) (ratio * shininess o1 + rn * shininess o2) (ratio * alpha o1 + rn * alpha o2).

(** ** Writing and reading in the ZTK format.

    A ZTK document is a sequence of keys with their values: text or numbers. *)
Inductive okey := KName | KAmbient | KDiffuse | KSpecular | KEsr | KShininess | KAlpha.
Inductive oval := VText (s : list ascii) | VNums (l : list R).
Definition ztk := list (okey * oval).

(** zeo_render_color.c 147-153: [zRGBToZTK]; 136-144: [zRGBFromZTK] *)
Definition zRGBToZTK (c : rgb) : oval := VNums [cr c; cg c; cb c].
Definition zRGBFromZTK (scan : list ascii -> option (R * R * R)) (v : oval) : option rgb :=
  match v with
  | VText (c :: t) => if Ascii.eqb c "#"%char then zRGBDecodeStr scan (c :: t) else None
  | VNums [r; g; b] => Some (RGB r g b)
  | _ => None
  end.

(** zeo_render_optic.c 142-171: [zOpticalInfoToZTK], for a named set *)
Definition zOpticalInfoToZTK (o : optic) (name : list ascii) : ztk :=
  [(KName, VText name)]
  ++ (if zRGBIsZero (ambient o) then [] else [(KAmbient, zRGBToZTK (ambient o))])
  ++ (if zRGBIsZero (diffuse o) then [] else [(KDiffuse, zRGBToZTK (diffuse o))])
  ++ (if zRGBIsZero (specular o) then [] else [(KSpecular, zRGBToZTK (specular o))])
  ++ (if zIsTiny (esr o) then [] else [(KEsr, VNums [esr o])])
  ++ (if zIsTiny (shininess o) then [] else [(KShininess, VNums [shininess o])])
  ++ (if zIsTiny (alpha o) then [] else [(KAlpha, VNums [alpha o])]).

(** zeo_render_optic.c 102-124, 174-178: [zOpticalInfoFPrintZTK], for a named
    set; an entry whose printer returns false is taken not to be printed *)
Definition zOpticalInfoFPrintZTK (o : optic) (name : list ascii) : ztk :=
  [(KName, VText name); (KAmbient, zRGBToZTK (ambient o)); (KDiffuse, zRGBToZTK (diffuse o)); (KSpecular, zRGBToZTK (specular o))]
  ++ (if zIsTiny (esr o) then [] else [(KEsr, VNums [esr o])])
  ++ (if zIsTiny (shininess o) then [] else [(KShininess, VNums [shininess o])])
  ++ (if zIsTiny (1 - alpha o) then [] else [(KAlpha, VNums [alpha o])]).

(** zeo_render_optic.c 78-99: the handlers of the keys *)
Definition optic_key (scan : list ascii -> option (R * R * R)) (o : optic) (kv : okey * oval) : option optic :=
  match kv with
  | (KName, VText s) => Some (Optic (Some s) (ambient o) (diffuse o) (specular o) (esr o) (shininess o) (alpha o))
  | (KAmbient, v) => match zRGBFromZTK scan v with Some c => Some (Optic (oname o) c (diffuse o) (specular o) (esr o) (shininess o) (alpha o)) | None => None end
  | (KDiffuse, v) => match zRGBFromZTK scan v with Some c => Some (Optic (oname o) (ambient o) c (specular o) (esr o) (shininess o) (alpha o)) | None => None end
  | (KSpecular, v) => match zRGBFromZTK scan v with Some c => Some (Optic (oname o) (ambient o) (diffuse o) c (esr o) (shininess o) (alpha o)) | None => None end
  | (KEsr, VNums [x]) => Some (Optic (oname o) (ambient o) (diffuse o) (specular o) x (shininess o) (alpha o))
  | (KShininess, VNums [x]) => Some (Optic (oname o) (ambient o) (diffuse o) (specular o) (esr o) x (alpha o))
  | (KAlpha, VNums [x]) => Some (Optic (oname o) (ambient o) (diffuse o) (specular o) (esr o) (shininess o) x)
  | _ => None
  end.

(** zeo_render_optic.c 135-139: [zOpticalInfoFromZTK]: defaults, then the
    handlers of the keys in the order of the document *)
Fixpoint eval_keys (scan : list ascii -> option (R * R * R)) (o : optic) (z : ztk) : option optic :=
  match z with
  | [] => Some o
  | kv :: z' => match optic_key scan o kv with Some o' => eval_keys scan o' z' | None => None end
  end.
Definition zOpticalInfoFromZTK (scan : list ascii -> option (R * R * R)) (z : ztk) : option optic :=
  eval_keys scan zOpticalInfoInit z.

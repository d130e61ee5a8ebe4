(** Files of spline surfaces: src/zeo_nurbs3d.c 255-353, include/zeo/zeo_nurbs3d.h 219-223.
    Values and the key loop are those of ModelZtk.v.  zVecFromZTK and zVecFPrint belong to ZM and are
    parameters [vr] and [vp]; [mem] is what is in a net that was just allocated, [sl] the number of slices
    set by zBSplineParamInit. *)
From Coq Require Import Ascii String.
From Verif Require Export ModelZtk ModelNurbs.
From Coq Require Import List ZArith.
Import ListNotations.
Open Scope R_scope.

(** the surface while it is read: knots of both axes (null at first), sizes, net, slices *)
Record nst := NS { nsk0 : option (list R); nsk1 : option (list R); nsn0 : Z; nsn1 : Z; nsnet : Z -> Z -> cell; nss0 : Z; nss1 : Z }.
Section Read.
  Variable vr : list tok -> option (list R).
  Variable mem : Z -> Z -> cell.
  Variable sl : Z.
  (** 257-268; the key is evaluated once, so the knots are null before *)
  Definition nkU (s : nst) (_ : nat) (v : list tok) : rd nst :=
    let s' := NS (vr v) (nsk1 s) (nsn0 s) (nsn1 s) (nsnet s) (nss0 s) (nss1 s) in match vr v with Some _ => ROk s' | None => RFail s' end.
  (** 269-271 *)
  Definition nkV (s : nst) (_ : nat) (v : list tok) : rd nst :=
    let s' := NS (nsk0 s) (vr v) (nsn0 s) (nsn1 s) (nsnet s) (nss0 s) (nss1 s) in match vr v with Some _ => ROk s' | None => RFail s' end.
  (** 272-276; negative numbers are left out *)
  Definition nkSlice (s : nst) (_ : nat) (v : list tok) : rd nst :=
    let '(a, v) := ZTKInt v in let '(b, _) := ZTKInt v in
    if (Z.leb 0 a && Z.leb 0 b)%bool then ROk (NS (nsk0 s) (nsk1 s) (nsn0 s) (nsn1 s) (nsnet s) a b) else RUndef.
  (** 277-288; sizes that are not positive are left out *)
  Definition nkSize (s : nst) (_ : nat) (v : list tok) : rd nst :=
    let '(a, v) := ZTKInt v in let '(b, _) := ZTKInt v in
    if (Z.ltb 0 a && Z.ltb 0 b)%bool then ROk (NS (nsk0 s) (nsk1 s) a b mem (nss0 s) (nss1 s)) else RUndef.
  (** 289-300; a missing token is a null pointer *)
  Definition nkCP (s : nst) (_ : nat) (v : list tok) : rd nst :=
    let '(j, v) := ZTKInt v in let '(k, v) := ZTKInt v in
    if (Z.leb 0 j && Z.ltb j (nsn0 s) && Z.leb 0 k && Z.ltb k (nsn1 s))%bool then
      let '(w, v) := ZTKDouble v in
      match zVec3DFromZTK v with
      | Some (p, _) => ROk (NS (nsk0 s) (nsk1 s) (nsn0 s) (nsn1 s) (fun a b => if (Z.eqb a j && Z.eqb b k)%bool then CPC p w else nsnet s a b) (nss0 s) (nss1 s))
      | None => RUndef
      end
    else RFail s.
  Open Scope string_scope. Open Scope list_scope.
  (** 321-327; zeo_nurbs3d.h 219-223 *)
  Definition nurbsPrp : list (prp nst) := [
    PRP "uknot" (Some 1%nat) nkU; PRP "vknot" (Some 1%nat) nkV; PRP "size" (Some 1%nat) nkSize; PRP "cp" None nkCP; PRP "slice" (Some 1%nat) nkSlice].
  (** 41-47 *)
  Definition nsInit : nst := NS None None 0 0 mem sl sl.
  (** 330-340: [None] for undefined behaviour (knots that are null), [Some None] for a null pointer *)
  Definition zNURBS3DFromZTK (d : sect) : option (option nurbs) :=
    match ZTKEvalKey nurbsPrp nsInit d with
    | RUndef => None
    | RFail _ => Some None
    | ROk s =>
        match nsk0 s with
        | None => None
        | Some ks0 =>
            let o0 := (Z.of_nat (length ks0) - nsn0 s - 1)%Z in
            if Z.leb o0 0 then Some None
            else match nsk1 s with
                 | None => None
                 | Some ks1 =>
                     let o1 := (Z.of_nat (length ks1) - nsn1 s - 1)%Z in
                     if Z.leb o1 0 then Some None
                     else Some (Some (NU (BS (Z.to_nat o0) ks0 (Z.to_nat (nss0 s))) (BS (Z.to_nat o1) ks1 (Z.to_nat (nss1 s))) (Z.to_nat (nsn0 s)) (Z.to_nat (nsn1 s))
                                         (fun i j => nsnet s (Z.of_nat i) (Z.of_nat j))))
                 end
        end
    end.
End Read.
Section Print.
  Variable vp : list R -> list tok.
  Open Scope string_scope. Open Scope list_scope.
  (** 302-311: no line for empty knots *)
  Definition knotLine (k : string) (ks : list R) : sect := match ks with [] => [] | _ => [(k, vp ks)] end.
  (** 348-351 *)
  Definition cpLine (n : nurbs) (i j : nat) : entry :=
    ("cp", [TInt (Z.of_nat i); TInt (Z.of_nat j); TNum (zNURBS3DWeight n i j)] ++ zVec3DFPrint (zNURBS3DCP n i j)).
  (** 302-319, 343-353 *)
  Definition zNURBS3DFPrintZTK (n : nurbs) : sect :=
    knotLine "uknot" (bs_knot (nu_0 n)) ++ knotLine "vknot" (bs_knot (nu_1 n)) ++
    [("size", [TInt (Z.of_nat (nu_n0 n)); TInt (Z.of_nat (nu_n1 n))]); ("slice", [TInt (Z.of_nat (bs_slice (nu_0 n))); TInt (Z.of_nat (bs_slice (nu_1 n)))])] ++
    flat_map (fun i => map (cpLine n i) (seq 0 (nu_n1 n))) (seq 0 (nu_n0 n)).
End Print.

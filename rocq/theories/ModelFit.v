(** Fit of a sphere to points: src/zeo_shape3d_sphere.c 60-102.
    The solver zLESolveErrorMin of ZM and its number of iterations
    Z_MAX_ITER_NUM are parameters.  Of the sphere only centre and radius are
    kept (the division number is the default one).  Warnings are the third
    component of the result: [true] when the iteration has stopped by itself. *)
From Verif Require Export Base ModelVec ModelData ModelPCA.
From Coq Require Import List.
Import ListNotations.
Open Scope R_scope.

Section Fit.
  Variable solve : list (vec3 * R) -> list R -> vec3 * R.
  (** 83-91: one row of the system for every point *)
  Definition fit_system (d : data vec3) (c : vec3) (r : R) : option (data vec3 * (list (vec3 * R) * list R)) :=
    while_fetch (fuel_of d) (zVecXDDataRewind d) ([], [])
      (fun s v => inl (fst s ++ [(V3 (vx v - vx c) (vy v - vy c) (vz v - vz c), r)], snd s ++ [zVec3DSqrDist v c - zSqr r])).
  (** ZM's zVecIsTiny *)
  Definition step_tiny (x : vec3 * R) : bool := (zIsTiny (vx (fst x)) && zIsTiny (vy (fst x)) && zIsTiny (vz (fst x)) && zIsTiny (snd x))%bool.
  (** 81-96 *)
  Fixpoint fit_loop (iter : nat) (d : data vec3) (c : vec3) (r : R) : option (data vec3 * (vec3 * R * bool)) :=
    match iter with
    | O => Some (d, (c, r, false))
    | S k =>
        match fit_system d c r with
        | None => None
        | Some (d, (rows, es)) =>
            let x := solve rows es in
            if step_tiny x then Some (d, (c, r, true))
            else fit_loop k d (zVec3DCat c (1/2) (fst x)) (r + 1/2 * snd x)
        end
    end.
  (** 71-78: without points the radius is 0/0 *)
  Definition zSphere3DFit (iter : nat) (d : data vec3) : option (data vec3 * (vec3 * R * bool)) :=
    match zVec3DDataBarycenter d with
    | Some (d, Some c) =>
        match while_fetch (fuel_of d) (zVecXDDataRewind d) 0 (fun s v => inl (s + zVec3DDist v c)) with
        | Some (d, s) => if Nat.eqb (zVecXDDataSize d) 0 then None else fit_loop iter d c (s / INR (zVecXDDataSize d))
        | None => None
        end
    | _ => None
    end.
End Fit.

(** Model of the power method: src/zeo_mat3d.c 879-910.
    The random vector the iteration starts from, what is in memory, and the number of steps (ZITERINIT) are parameters;
    the last component of a result tells if the loop was left by its break. *)
From Verif Require Export Base ModelVec ModelMat.
Open Scope R_scope.

(** 887-894 *)
Fixpoint powerLoop (n : nat) (m : mat3) (eigvec ev : vec3) (eigval : R) : vec3 * R * bool :=
  match n with
  | O => (eigvec, eigval, false)
  | S n =>
      let ev := snd (zVec3DNormalize eigvec ev) in
      let eigvec := zMulMat3DVec3D m ev in
      let eigval := zVec3DInnerProd ev eigvec in
      if zVec3DIsTiny (zVec3DCat eigvec (- eigval) ev) then (eigvec, eigval, true) else powerLoop n m eigvec ev eigval
  end.
(** 880-897: [start] is the random vector; division by 0 leaves the vector *)
Definition zMat3DEigPower (n : nat) (m : mat3) (start junk : vec3) : R * vec3 * bool :=
  let '(v, l, b) := powerLoop n m start junk 1 in (l, match zVec3DDiv v l with Some w => w | None => v end, b).
(** 900-910: [None] if a matrix that was not written is used, or 1 is divided by 0; [old] is what is in memory *)
Definition zMat3DEigPowerInv (n : nat) (m : mat3) (start junk : vec3) (old : mat3) : option (R * vec3 * bool) :=
  match zMat3DInv m old with
  | (true, Computed im) => let '(l, v, b) := zMat3DEigPower n im start junk in if Reqb l 0 then None else Some (1 / l, v, b)
  | _ => None
  end.

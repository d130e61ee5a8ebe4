(** Model of the identification of a transformation from two lists of points: src/zeo_vec3d_profile.c 82-119,
    and of the singular value decomposition it uses: src/zeo_mat3d.c 985-1003.
    The Jacobi iteration takes a limit; [None] means that a limit is exceeded. *)
From Verif Require Export Base ModelVec ModelMat ModelFrame ModelElem ModelData ModelPCA.
Open Scope R_scope.

(** src/zeo_mat3d.c 993-1001: one turn of the loop: the singular values, the columns of v and the rank so far.
    zVec3DDivDRC does nothing if the divisor is zero. The square root of a negative number is a NaN: [None]. *)
Definition zMat3DSVDStep (s : vec3 * mat3 * nat) (i : nat) : option (vec3 * mat3 * nat) :=
  let '(sv, v, rank) := s in
  if zIsTiny (ve sv i) then Some (vset sv i 0, v, rank)
  else if Rltb (ve sv i) 0 then None
  else let k := sqrt (ve sv i) in
       Some (vset sv i k, match zVec3DDiv (zMat3DVec v i) k with Some c => set_vec v i c | None => v end, Datatypes.S rank).
(** src/zeo_mat3d.c 986-1003: the rank, u, the singular values, v.
    The result of zMat3DSymEig is not looked at in the code: its failure is the exceeded limit here. *)
Definition zMat3DSVD (fuel : nat) (m : mat3) : option (nat * mat3 * vec3 * mat3) :=
  match zMat3DSymEig fuel (zMulMat3DMat3DT m m) with
  | None => None
  | Some (sv, u) =>
      match zMat3DSVDStep (sv, zMulMat3DTMat3D m u, 0%nat) 0 with
      | None => None
      | Some s => match zMat3DSVDStep s 1 with
                  | None => None
                  | Some s => match zMat3DSVDStep s 2 with
                              | None => None
                              | Some (sv, v, rank) => Some (rank, u, sv, v)
                              end
                  end
      end
  end.

(** src/zeo_vec3d_profile.c 105: points fetched in turn from two different data until either is exhausted.
    One data passed as both arguments is not modelled. *)
Fixpoint while_fetch2 {S} (fuel : nat) (d1 d2 : data vec3) (s : S) (body : S -> vec3 -> vec3 -> S) : option (data vec3 * data vec3 * S) :=
  match fuel with
  | O => None
  | Datatypes.S k =>
      match zVecXDDataFetch d1 with
      | (d1, None) => Some (d1, d2, s)
      | (d1, Some po) => match zVecXDDataFetch d2 with
                         | (d2, None) => Some (d1, d2, s)
                         | (d2, Some p) => while_fetch2 k d1 d2 (body s po p) body
                         end
      end
  end.
(** The result: the null pointer, a frame, or a frame whose position is not a number. *)
Inductive identified := INull | INaN (att : mat3) | IFrame (f : frame3).
(** 82 *)
Definition IDENT_FRAME_MINSIZ : nat := 3.
(** 104-110: the sums *)
Definition ident_body (pgo pg : vec3) (s : R * mat3) (po p : vec3) : R * mat3 :=
  let dpo := zVec3DSub po pgo in let dp := zVec3DSub p pg in
  (fst s + zVec3DSqrNorm dpo, zMat3DAddDyad (snd s) dpo dp).
(** 111-118 *)
Definition ident_solve (fuel : nat) (n : nat) (pgo pg : vec3) (so : R) (cov : mat3) : option identified :=
  let so := so / INR n in
  match zMat3DDiv cov (INR n) with
  | None => None
  | Some cov =>
      match zMat3DSVD fuel cov with
      | None => None
      | Some (_, u, d, v) =>
          let att := zMulMat3DMat3DT v u in
          let dp := zMulMat3DVec3D att pgo in
          Some (if Reqb so 0 then INaN att
                else IFrame (F3 (zVec3DSub pg (zVec3DMul dp ((vx d + vy d + vz d) / so))) att))
      end
  end.
(** 85-119 *)
Definition zVec3DDataIdentFrame (fuel : nat) (src dest : data vec3) : option (data vec3 * data vec3 * identified) :=
  if negb (Nat.eqb (zVecXDDataSize src) (zVecXDDataSize dest)) then Some (src, dest, INull)
  else if Nat.ltb (zVecXDDataSize src) IDENT_FRAME_MINSIZ then Some (src, dest, INull)
  else match zVec3DDataBarycenter src, zVec3DDataBarycenter dest with
       | Some (src, Some pgo), Some (dest, Some pg) =>
           match while_fetch2 (fuel_of src) (zVecXDDataRewind src) (zVecXDDataRewind dest) (0, ZMAT3DZERO) (ident_body pgo pg) with
           | None => None
           | Some (src, dest, (so, cov)) =>
               match ident_solve fuel (zVecXDDataSize src) pgo pg so cov with
               | None => None
               | Some r => Some (src, dest, r)
               end
           end
       | _, _ => None
       end.

(** Model of principal component analysis of points: src/zeo_vec3d_pca.c.
    The Jacobi iteration takes a limit; [None] of the outer option means that a limit is exceeded.
    [None] of the inner option is the failure reported to the caller. *)
From Verif Require Export Base ModelVec ModelMat ModelFrame ModelElem ModelData.
Open Scope R_scope.

(** 10-23 *)
Definition zVec3DDataBarycenter (d : data vec3) : option (data vec3 * option vec3) :=
  if zVecXDDataIsEmpty d then Some (d, None)
  else match while_fetch (fuel_of d) (zVecXDDataRewind d) (V3 0 0 0) (fun center v => inl (zVec3DAdd center v)) with
       | None => None
       | Some (d', center) => Some (d', zVec3DDiv center (INR (zVecXDDataSize d')))
       end.
(** 26-42 *)
Definition zVec3DDataCov (d : data vec3) (center : vec3) : option (data vec3 * option mat3) :=
  if zVecXDDataIsEmpty d then Some (d, None)
  else match while_fetch (fuel_of d) (zVecXDDataRewind d) ZMAT3DZERO (fun cov v => let p := zVec3DSub v center in inl (zMat3DAddDyad cov p p)) with
       | None => None
       | Some (d', cov) => Some (d', zMat3DDiv cov (INR (zVecXDDataSize d')))
       end.
(** 45-64 *)
Definition zVec3DDataBaryCov (d : data vec3) : option (data vec3 * option (vec3 * mat3)) :=
  if zVecXDDataIsEmpty d then Some (d, None)
  else match while_fetch (fuel_of d) (zVecXDDataRewind d) (V3 0 0 0, ZMAT3DZERO) (fun s v => inl (zVec3DAdd (fst s) v, zMat3DAddDyad (snd s) v v)) with
       | None => None
       | Some (d', (p, cov)) =>
           match zVec3DDiv p (INR (zVecXDDataSize d')) with
           | None => Some (d', None)
           | Some center => match zMat3DDiv (zMat3DSubDyad cov p center) (INR (zVecXDDataSize d')) with
                            | None => Some (d', None)
                            | Some cov => Some (d', Some (center, cov))
                            end
           end
       end.
(** 67-78: variances and principal axes (columns) *)
Definition zVec3DDataPCA (fuel : nat) (d : data vec3) (center : vec3) : option (data vec3 * option (vec3 * mat3)) :=
  match zVec3DDataCov d center with
  | None => None
  | Some (d', None) => Some (d', None)
  | Some (d', Some vm) => match zMat3DSymEig fuel vm with None => None | Some r => Some (d', Some r) end
  end.
(** 81-92 *)
Definition zVec3DDataBaryPCA (fuel : nat) (d : data vec3) : option (data vec3 * option (vec3 * (vec3 * mat3))) :=
  match zVec3DDataBaryCov d with
  | None => None
  | Some (d', None) => Some (d', None)
  | Some (d', Some (center, vm)) => match zMat3DSymEig fuel vm with None => None | Some r => Some (d', Some (center, r)) end
  end.
(** 95-100 *)
Definition zVec3DDataPCAFrame (fuel : nat) (d : data vec3) : option (data vec3 * option frame3) :=
  match zVec3DDataBaryPCA fuel d with
  | None => None
  | Some (d', None) => Some (d', None)
  | Some (d', Some (center, (_, pa))) => Some (d', Some (F3 center (of_b (bx pa) (by_ pa) (zVec3DOuterProd (bx pa) (by_ pa)))))
  end.
(** 103-110 *)
Definition zVec3DDataMeanNormal (fuel : nat) (d : data vec3) (center : vec3) : option (data vec3 * option vec3) :=
  match zVec3DDataPCA fuel d center with
  | None => None
  | Some (d', None) => Some (d', None)
  | Some (d', Some (pc, pa)) => Some (d', Some (zMat3DVec pa (zMat3DEigMinID pc)))
  end.
(** 113-120: the centre and the plane *)
Definition zVec3DDataMeanPlane (fuel : nat) (d : data vec3) : option (data vec3 * option (vec3 * option plane3)) :=
  match zVec3DDataBaryPCA fuel d with
  | None => None
  | Some (d', None) => Some (d', None)
  | Some (d', Some (center, (pc, pa))) => Some (d', Some (center, zPlane3DCreate center (zMat3DVec pa (zMat3DEigMinID pc))))
  end.

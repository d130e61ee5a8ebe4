(** Model of the normal vectors of a set of points and of the iterative closest point method:
    src/zeo_vec3d_profile.c 12-78 and 121-168.
    The Jacobi iteration and the octree take a limit. Warnings and messages are left out. *)
From Verif Require Export Base ModelVec ModelMat ModelFrame ModelElem ModelData ModelPCA ModelTree ModelOctree ModelProfile.
From Verif Require ModelBox.
Open Scope R_scope.

(** The result of the estimation: the null pointer, a variable read before it is set or an exceeded limit, the normal vectors. *)
Inductive normals := NNull | NUndef | NData (d : data vec3).
(** 12-26; [None]: the normal vector is not set *)
Definition zVec3DDataNormalVecFromVicinity (fuel : nat) (vicinity : data vec3) (point center : vec3) : option vec3 :=
  match zVec3DDataMeanNormal fuel vicinity point with
  | Some (_, Some normal) =>
      let d := zVec3DSub point center in
      Some (if Rltb (zVec3DInnerProd normal d) 0 then zVec3DRev normal else normal)
  | _ => None
  end.
(** 38-44, 65-71: the body of the loop *)
Definition normal_body (fuel : nat) (vic : vec3 -> option (data vec3)) (center : vec3) (s : normals) (v : vec3) : normals + normals :=
  match s with
  | NData normaldata =>
      match vic v with
      | None => inr NNull
      | Some vicinity =>
          match zVec3DDataNormalVecFromVicinity fuel vicinity v center with
          | None => inr NUndef
          | Some normal => let '(normaldata, ok) := zVecXDDataAdd normaldata normal in
                           if ok then inl (NData normaldata) else inr NNull
          end
      end
  | _ => inr s
  end.
(** 29-50. The barycentre of no point is not set, and not used. *)
Definition zVec3DDataNormalVec_Tree (fuel : nat) (pointdata : data vec3) (radius : R) : option (data vec3 * normals) :=
  match zVec3DDataToTree pointdata with
  | None => None
  | Some (pointdata, tree) =>
      match zVec3DDataBarycenter pointdata with
      | None => None
      | Some (pointdata, center) =>
          while_fetch (fuel_of pointdata) (zVecXDDataRewind pointdata) (NData zVecXDDataInitList)
            (normal_body fuel (fun v => zVec3DTreeVicinity tree v radius) (match center with Some c => c | None => V3 0 0 0 end))
      end
  end.
(** 53-76. The bounding box of no point is not set, but used. *)
Definition zVec3DDataNormalVec_Octree (fuel : nat) (pointdata : data vec3) (radius : R) : option (data vec3 * normals) :=
  match zVecXDDataToAddrList pointdata with
  | None => None
  | Some (pointdata, points) =>
      match ModelBox.zVec3DDataAABB points with
      | None => Some (pointdata, NUndef)
      | Some (aabb, _) =>
          match zVec3DOctreeAddData fuel (zVec3DOctreeInit (vx (bmin aabb)) (vy (bmin aabb)) (vz (bmin aabb)) (vx (bmax aabb)) (vy (bmax aabb)) (vz (bmax aabb)) radius) pointdata with
          | None => None
          | Some (pointdata, None) => Some (pointdata, NUndef)
          | Some (pointdata, Some (_, false)) => Some (pointdata, NNull)
          | Some (pointdata, Some (octree, true)) =>
              match zVec3DDataBarycenter pointdata with
              | None => None
              | Some (pointdata, center) =>
                  while_fetch (fuel_of pointdata) (zVecXDDataRewind pointdata) (NData zVecXDDataInitList)
                    (normal_body fuel (fun v => zVec3DOctreeVicinity octree v radius) (match center with Some c => c | None => V3 0 0 0 end))
              end
          end
      end
  end.
(** 78: the default *)
Definition zVec3DDataNormalVec := zVec3DDataNormalVec_Octree.

(** 122-132; [None]: a centre is not set *)
Definition zVec3DDataICPInit (src dest : data vec3) : option (data vec3 * data vec3 * frame3) :=
  match zVec3DDataBarycenter src, zVec3DDataBarycenter dest with
  | Some (src, Some center_src), Some (dest, Some center_dest) => Some (src, dest, F3 (zVec3DSub center_dest center_src) ZMAT3DIDENT)
  | _, _ => None
  end.
(** The variables of the loop 152-158: the number of points fetched, the largest error, the samples. *)
Record icp_state := IS { is_k : nat; is_error : R; is_src : data vec3; is_dest : data vec3 }.
(** 152-158; [None]: a point is looked for in no point.
    [rand k] is the random number drawn for the point fetched after [k] others. *)
Definition icp_body (tree : tree) (frame : frame3) (sample_rate : R) (rand : nat -> R) (s : option icp_state) (po : vec3) : option icp_state + option icp_state :=
  match s with
  | None => inr None
  | Some s =>
      if Rltb sample_rate (rand (is_k s)) then inl (Some (IS (S (is_k s)) (is_error s) (is_src s) (is_dest s)))
      else match zVec3DTreeNN tree (zXform3D frame po) with
           | Some (Some nn, Some error) =>
               match t_point nn with
               | Some q => inl (Some (IS (S (is_k s)) (if Rltb (is_error s) error then error else is_error s)
                                         (fst (zVecXDDataAdd (is_src s) po)) (fst (zVecXDDataAdd (is_dest s) q))))
               | None => inr None
               end
           | _ => inr None
           end
  end.
(** The result: converged in the given round, not converged, or a frame that is not a number has been computed. *)
Inductive icp := ICPConverged (i : nat) (f : frame3) | ICPGaveUp (f : frame3) | ICPNaN.
(** 147-163; [k] rounds are left and [i] are over.
    [rand i k] is the random number drawn in the round [i] for the point fetched after [k] others.
    The null pointer from zVec3DDataIdentFrame is not looked at, the frame being unchanged. *)
Fixpoint icp_loop (fuel : nat) (tree : tree) (sample_rate tol : R) (rand : nat -> nat -> R) (k i : nat) (src : data vec3) (frame : frame3) : option (data vec3 * icp) :=
  match k with
  | O => Some (src, ICPGaveUp frame)
  | S k =>
      match while_fetch (fuel_of src) (zVecXDDataRewind src) (Some (IS 0 0 zVecXDDataInitAddrList zVecXDDataInitAddrList)) (icp_body tree frame sample_rate (rand i)) with
      | Some (src, Some s) =>
          if Rltb (is_error s) tol then Some (src, ICPConverged i frame)
          else match zVec3DDataIdentFrame fuel (is_src s) (is_dest s) with
               | None => None
               | Some (_, _, INull) => icp_loop fuel tree sample_rate tol rand k (S i) src frame
               | Some (_, _, IFrame f) => icp_loop fuel tree sample_rate tol rand k (S i) src f
               | Some (_, _, INaN _) => Some (src, ICPNaN)
               end
      | _ => None
      end
  end.
(** include/zeo/zeo_vec3d_profile.h 47 *)
Definition ICP_MAXITERNUM : nat := 200.
(** 135-168 *)
Definition zVec3DDataICP (fuel : nat) (rand : nat -> nat -> R) (src dest : data vec3) (sample_rate tol : R) : option (data vec3 * data vec3 * icp) :=
  match zVec3DDataToTree dest with
  | None => None
  | Some (dest, tree) =>
      match zVec3DDataICPInit src dest with
      | None => None
      | Some (src, dest, frame) =>
          match icp_loop fuel tree sample_rate tol rand ICP_MAXITERNUM 0 src frame with
          | None => None
          | Some (src, r) => Some (src, dest, r)
          end
      end
  end.

(** Polyhedra generated from solid shapes and by sweeping polygons.
    Vertices and faces live in arrays allocated beforehand by zPH3DAlloc
    (src/zeo_ph3d.c 19-48); the model records the numbers of elements allocated,
    the vertices written (in the order of the array) and the faces written (triples of
    vertex numbers, in the order of the array).  Normals are those of zTri3DCreate
    and are not kept.  Loop variables are natural numbers; no subtraction below is
    truncated for a division number of at least one. *)
From Verif Require Export ModelMass.
Open Scope R_scope.

Record mesh := MS { m_nv : nat; m_verts : list vec3; m_nf : nat; m_faces : list (nat * nat * nat) }.

(** the value of j at turn i of "for( i=0, j=n-1; ...; j=i++ )" *)
Definition prev0 (n i : nat) : nat := match i with O => (n - 1)%nat | S i' => i' end.
(** the value of j at turn i of "for( i=1, j=n; ...; j=i++ )" *)
Definition prev1 (n i : nat) : nat := if Nat.eqb i 1 then n else (i - 1)%nat.
(** the angle zPIx2 * i / n *)
Definition turn (n i : nat) : R := 2 * PI * INR i / INR n.

(** ** src/zeo_shape3d_cyl.c 181-225 *)
Definition cyl_faces (n : nat) : list (nat * nat * nat) :=
  let nv := (n * 2)%nat in
  (map (fun i => (0, i, i - 1)) (seq 2 (n - 2)) ++
   flat_map (fun i => let j := prev0 n i in [(j, i, i + n); (j, i + n, j + n)]) (seq 0 n) ++
   map (fun i => (nv - 1, i, i + 1)) (seq (nv - n) (n - 2)))%nat.
(** the points r of one turn of the loop, 202-205: [None] if the vector s is not set *)
Definition circle_points (axis : vec3) (rad : R) (n : nat) : option (list vec3) :=
  if zVec3DIsTiny axis then None
  else
    let d := snd (zVec3DNormalizeDRC axis) in
    match zVec3DOrthonormal d with
    | None => None
    | Some s =>
        let s := zVec3DMul s rad in
        mapM (fun i => zVec3DRot s (zVec3DMul d (turn n i))) (seq 0 n)
    end.
Definition zCyl3DToPH (c : cyl3) : option mesh :=
  let n := Z.to_nat (cdiv c) in
  match circle_points (zCyl3DAxis c) (crad c) n with
  | Some rs => Some (MS (n * 2) (map (zVec3DAdd (cc0 c)) rs ++ map (zVec3DAdd (cc1 c)) rs) ((n - 1) * 4) (cyl_faces n))
  | None => None
  end.

(** ** src/zeo_shape3d_ecyl.c 209-251: the numbering is that of the cylinder *)
Definition zECyl3DToPH (c : ecyl3) : option mesh :=
  let n := Z.to_nat (ecdiv c) in
  if Rltb (fst (zVec3DNormalizeDRC (zECyl3DAxis c))) 0 then None
  else
    let rs := map (fun i => zVec3DCat (zVec3DMul (ev0 c) (er0 c * cos (turn n i))) (er1 c * sin (turn n i)) (ev1 c)) (seq 0 n) in
    Some (MS (n * 2) (map (zVec3DAdd (ec0 c)) rs ++ map (zVec3DAdd (ec1 c)) rs) ((n - 1) * 4) (cyl_faces n)).

(** ** src/zeo_shape3d_cone.c 201-238 *)
Definition cone_faces (n : nat) : list (nat * nat * nat) :=
  (map (fun i => (0, prev1 n i, i)) (seq 1 n) ++ map (fun i => (1, i, i - 1)) (seq 3 (n - 2)))%nat.
Definition zCone3DToPH (c : cone3) : option mesh :=
  let n := Z.to_nat (kdiv c) in
  match circle_points (zCone3DAxis c) (krad c) n with
  | Some rs => Some (MS (n + 1) (kvert c :: map (zVec3DAdd (kcen c)) rs) (n * 2 - 2) (cone_faces n))
  | None => None
  end.

(** ** src/zeo_shape3d_box.c 9-29 *)
Definition box_quad (i1 i2 i3 i4 : nat) : list (nat * nat * nat) := [(i1, i2, i3); (i1, i3, i4)].
Definition box_faces : list (nat * nat * nat) :=
  (box_quad 0 1 2 3 ++ box_quad 0 4 5 1 ++ box_quad 1 5 6 2 ++ box_quad 2 6 7 3 ++ box_quad 0 3 7 4 ++ box_quad 7 6 5 4)%nat.
Definition zBox3DToPH (b : box3) : mesh := MS 8 (map (zBox3DVert b) (seq 0 8)) 12 box_faces.

(** ** src/zeo_shape3d_sphere.c 11-58 and src/zeo_shape3d_ellips.c 192-242 *)
Definition sphere_nv (n : nat) : nat := (n * (n - 1) + 2)%nat.
Definition sphere_nf (n : nat) : nat := (n * (n - 1) * 2)%nat.
Definition sphere_cap0 (n : nat) : list (nat * nat * nat) := map (fun i => (0, i, prev1 n i)%nat) (seq 1 n).
Definition sphere_body (n : nat) : list (nat * nat * nat) :=
  flat_map (fun i => flat_map (fun j =>
    let k := ((i - 1) * n + 1 + j)%nat in
    let l := if Nat.eqb j 0 then (i * n)%nat else (k - 1)%nat in
    [(l, k, k - n); (l, k - n, l - n)]%nat) (seq 0 n)) (seq 2 (n - 2)).
(** the last loop runs until the allocated number of faces is reached *)
Definition sphere_cap1 (n : nat) (written : nat) : list (nat * nat * nat) :=
  let nv := sphere_nv n in
  map (fun t => let i := (nv - n - 1 + t)%nat in
                let j := if Nat.eqb t 0 then (nv - 2)%nat else (i - 1)%nat in (i, nv - 1, j)%nat)
      (seq 0 (sphere_nf n - written)).
Definition sphere_faces (n : nat) : list (nat * nat * nat) :=
  let a := sphere_cap0 n ++ sphere_body n in a ++ sphere_cap1 n (length a).
(** the directions in the order they are visited, 29-35 *)
Definition sphere_grid {A} (n : nat) (f : R -> R -> A) : list A :=
  flat_map (fun i => map (fun j => f (PI * INR i / INR n) (turn n j)) (seq 0 n)) (seq 1 (n - 1)).
Definition zSphere3DToPH (s : sphere3) : mesh :=
  let n := Z.to_nat (sdiv s) in
  let c := scen s in
  MS (sphere_nv n)
     (V3 (vx c) (vy c) (vz c + srad s) ::
      sphere_grid n (fun a t => zVec3DAdd (zVec3DCreatePolar (srad s) a t) c) ++ [V3 (vx c) (vy c) (vz c - srad s)])
     (sphere_nf n) (sphere_faces n).
Definition zEllips3DToPH (e : ellips3) : mesh :=
  let n := Z.to_nat (eldiv e) in
  MS (sphere_nv n)
     (zXform3D (elf e) (zVec3DMul (V3 0 0 1) (vz (elrad e))) ::
      sphere_grid n (fun a t => let p := zVec3DCreatePolar 1 a t in
        zXform3D (elf e) (V3 (vx p * vx (elrad e)) (vy p * vy (elrad e)) (vz p * vz (elrad e)))) ++
      [zXform3D (elf e) (zVec3DMul (V3 0 0 1) (- vz (elrad e)))])
     (sphere_nf n) (sphere_faces n).

(** ** src/zeo_shape3d_capsule.c 114-183 *)
Definition capsule_nv (n : nat) : nat := (n * n / 2 + 2)%nat.
Definition capsule_nf (n : nat) : nat := (n * n)%nat.
Definition capsule_faces (n : nat) : list (nat * nat * nat) :=
  let nh := (n / 4)%nat in
  let nv := capsule_nv n in
  (map (fun j => (0, prev1 n j, j)) (seq 1 n) ++
   flat_map (fun i => flat_map (fun j =>
     let n1 := n * i + prev1 n j in let n4 := n1 - n in
     let n2 := n * i + j in let n3 := n2 - n in [(n1, n3, n4); (n1, n2, n3)]) (seq 1 n)) (seq 1 (nh * 2 - 1)) ++
   map (fun t => let j := n + 1 - t in let j2 := if Nat.eqb t 0 then 2 else j + 1 in (nv - 1, nv - j, nv - j2)) (seq 0 n))%nat.
(** one ring: r is turned about d and added to the center, 141-150 and 153-162 *)
Definition capsule_ring (n nh : nat) (d dr s c : vec3) (i : nat) : option (list vec3) :=
  let lat := PI / 2 * INR i / INR nh in
  let r := zVec3DCat (zVec3DMul dr (cos lat)) (sin lat) s in
  match mapM (fun j => zVec3DRot r (zVec3DMul d (turn n j))) (seq 0 n) with
  | Some l => Some (map (fun v => zVec3DAdd v c) l)
  | None => None
  end.
Definition zCapsule3DToPH (c : cyl3) : option mesh :=
  let n := Z.to_nat (cdiv c) in
  let nh := (n / 4)%nat in
  let axis := zCyl3DAxis c in
  if zVec3DIsTiny axis then None
  else
    let d := snd (zVec3DNormalizeDRC axis) in
    match zVec3DOrthonormal d with
    | None => None
    | Some s =>
        let s := zVec3DMul s (crad c) in
        let dr := zVec3DMul d (crad c) in
        let rd := zVec3DRev dr in
        match mapM (capsule_ring n nh d dr s (cc1 c)) (seq 1 nh), mapM (capsule_ring n nh d rd s (cc0 c)) (rev (seq 1 nh)) with
        | Some up, Some dn =>
            Some (MS (capsule_nv n) (zVec3DAdd (cc1 c) dr :: concat up ++ concat dn ++ [zVec3DAdd (cc0 c) rd])
                     (capsule_nf n) (capsule_faces n))
        | _, _ => None
        end
    end.

(** ** src/zeo_ph3d.c 417-443: torus *)
Definition torus_faces (n div : nat) : list (nat * nat * nat) :=
  flat_map (fun i => let i0 := prev0 n i in
    flat_map (fun j => let j0 := prev0 div j in
      let k := (i * div + j)%nat in let v := (i0 * div + j0)%nat in
      [(k, i0 * div + j, v); (k, v, i * div + j0)]%nat) (seq 0 div)) (seq 0 n).
(** points of a polygon turned about an axis through [center] *)
Definition sweep_verts (loop : list vec3) (div : nat) (center axis : vec3) : option (list vec3) :=
  match mapM (fun p => let d := zVec3DSub p center in
          match mapM (fun j => zVec3DRot d (zVec3DMul axis (turn div j))) (seq 0 div) with
          | Some l => Some (map (fun v => zVec3DAdd v center) l) | None => None end) loop with
  | Some ls => Some (concat ls)
  | None => None
  end.
Definition face_vol (vs : list vec3) (f : nat * nat * nat) : R :=
  let '(a, b, c) := f in zTri3DConeVolume (T3 (nth a vs v3zero) (nth b vs v3zero) (nth c vs v3zero) v3zero) v3zero.
Definition flip_face (f : nat * nat * nat) : nat * nat * nat := let '(a, b, c) := f in (a, c, b).
(** 439-441: faces are turned over if the volume is negative *)
Definition fix_volume (vs : list vec3) (fs : list (nat * nat * nat)) : list (nat * nat * nat) :=
  if Rltb (fold_left (fun v f => v + face_vol vs f) fs 0) 0 then map flip_face fs else fs.
Definition zPH3DCreateTorus (loop : list vec3) (div : nat) (center axis : vec3) : option mesh :=
  let n := length loop in
  match sweep_verts loop div center axis with
  | Some vs => Some (MS (n * div) vs (2 * n * div) (fix_volume vs (torus_faces n div)))
  | None => None
  end.
(** ** src/zeo_ph3d.c 446-483: lathe *)
Definition lathe_faces (n div : nat) : list (nat * nat * nat) :=
  (flat_map (fun i => let i0 := i - 1 in
     flat_map (fun j => let j0 := prev0 div j in
       let v := i * div + j0 in let k := i0 * div + j in
       [(k, i0 * div + j0, v); (k, v, i * div + j)]) (seq 0 div)) (seq 1 (n - 1)) ++
   map (fun j => (0, j - 1, j)) (seq 2 (div - 2)) ++
   map (fun j => let j0 := (n - 1) * div in (j0, j0 + j - 1, j0 + j)) (seq 2 (div - 2)))%nat.
Definition zPH3DCreateLathe (rim : list vec3) (div : nat) (center axis : vec3) : option mesh :=
  let n := length rim in
  match sweep_verts rim div center axis with
  | Some vs => Some (MS (n * div) vs (2 * (n - 1) * div + 2 * (div - 2)) (fix_volume vs (lathe_faces n div)))
  | None => None
  end.

(** Vocabulary for the identification of a transformation from two lists of points. *)
From Verif Require Export Spec SpecGeom SpecData SpecPCA SpecBox.
Open Scope R_scope.

Definition psum (f : vec3 -> vec3 -> R) (l : list (vec3 * vec3)) : R := fold_right (fun pq s => f (fst pq) (snd pq) + s) 0 l.
(** mean of a quantity over corresponding points *)
Definition pmean (f : vec3 -> vec3 -> R) (l1 l2 : list vec3) : R := psum f (combine l1 l2) / INR (length l1).
(** how well the points [l1], mapped by [a], vary along with the points [l2] *)
Definition agreement (a : mat3) (l1 l2 : list vec3) : R :=
  pmean (fun p q => dot (mvec a (vsub p (vmean l1))) (vsub q (vmean l2))) l1 l2.
(** mean squared distance between the points [l1], mapped by [a] and displaced by [c], and the points [l2] *)
Definition misfit (a : mat3) (c : vec3) (l1 l2 : list vec3) : R :=
  pmean (fun p q => dist (vadd (mvec a p) c) q * dist (vadd (mvec a p) c) q) l1 l2.
(** mean squared distance from the centre *)
Definition scatter (l : list vec3) : R := mean (fun p => dist p (vmean l) * dist p (vmean l)) l.
(** for every direction of the first points there is one of the second points along which the covariance is at least [s] *)
Definition correlated (s : R) (l1 l2 : list vec3) : Prop := forall x, norm x = 1 -> exists y, norm y = 1 /\
  s <= pmean (fun p q => dot (vsub p (vmean l1)) x * dot (vsub q (vmean l2)) y) l1 l2.
(** the points extend in every direction *)
Definition extends (s : R) (l : list vec3) : Prop := forall x, norm x = 1 -> s <= spread l (vmean l) x.
(** points in a plane *)
Definition coplanar (l : list vec3) : Prop := exists n c, n <> v3zero /\ forall p, In p l -> dot p n = c.
(** rotation or reflection, scaling and displacement *)
Definition similar (k : R) (f : frame3) (l : list vec3) : list vec3 := map (fun p => vadd (vscale k (mvec (fatt f) p)) (fpos f)) l.

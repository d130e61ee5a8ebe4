(** Collision of polyhedra: src/zeo_col_ph.c 10-20. *)
From Verif Require Export ModelPH ModelGJK.
From Coq Require Import List.
Import ListNotations.
Open Scope R_scope.

(** 10-20: (p1, p2, returned value), zGJK on the arrays of vertices; [fuel] bounds the steps of its loop, [old] is the position
    it compares with where the simplex is no tetrahedron *)
Definition zColChkPH3D (fuel : nat) (old : vec3) (ph1 ph2 : ph3) : option (vec3 * vec3 * bool) := zGJK fuel old (pverts ph1) (pverts ph2).

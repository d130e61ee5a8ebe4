(** Vocabulary for OBJ files: lines of vertices and lines of faces. *)
From Coq Require Export Ascii String List ZArith.
Export ListNotations.
From Verif Require Export SpecFile SpecPly.
Open Scope R_scope.

(** a line is that of a vertex with its numbers, that of a face with its words, or another *)
Inductive obj_line := LVert (xs : list R) | LFace (ws : list string) | LOther.
(** digits and the number they denote *)
Definition digit_text (d : nat) : ascii := ascii_of_nat (48 + d).
Fixpoint digits_text (ds : list nat) : string := match ds with [] => EmptyString | d :: r => String (digit_text d) (digits_text r) end.
Definition digits_value (ds : list nat) : Z := fold_left (fun a d => (10 * a + Z.of_nat d)%Z) ds 0%Z.
Definition are_digits (ds : list nat) : Prop := ds <> [] /\ Forall (fun d => (d < 10)%nat) ds.
Inductive numeral : string -> Z -> Prop :=
| NU_plain : forall ds, are_digits ds -> numeral (digits_text ds) (digits_value ds)
| NU_minus : forall ds, are_digits ds -> numeral (String "-" (digits_text ds)) (- digits_value ds).
(** a corner: the number of a vertex, perhaps followed by a slash and anything else *)
Definition obj_corner (w : string) (n : Z) : Prop :=
  exists a b, w = (a ++ b)%string /\ numeral a n /\ (b = ""%string \/ exists r, b = String "/" r).
(** the vertices of a file; a coordinate that is missing is zero *)
Definition vert_of (xs : list R) : vec3 := V3 (nth 0 xs 0) (nth 1 xs 0) (nth 2 xs 0).
Definition obj_vertices (ls : list obj_line) : list vec3 := flat_map (fun l => match l with LVert xs => [vert_of xs] | _ => [] end) ls.
(** the polygons of a file, vertices numbered from one in the file, from zero here *)
Inductive obj_polygons : list obj_line -> list (list nat) -> Prop :=
| OP_nil : obj_polygons [] []
| OP_face : forall ws l ls ps, Forall2 (fun w i => obj_corner w (Z.of_nat i + 1)) ws l -> obj_polygons ls ps -> obj_polygons (LFace ws :: ls) (l :: ps)
| OP_vert : forall xs ls ps, obj_polygons ls ps -> obj_polygons (LVert xs :: ls) ps
| OP_other : forall ls ps, obj_polygons ls ps -> obj_polygons (LOther :: ls) ps.
(** the first three corners; a corner that is missing is the first vertex *)
Definition first_three (l : list nat) : nat * nat * nat := (nth 0 l 0%nat, nth 1 l 0%nat, nth 2 l 0%nat).
(** every face comes after the vertices that it names *)
Inductive declared : nat -> list obj_line -> Prop :=
| DC_nil : forall n, declared n []
| DC_face : forall n ws l ls, Forall2 (fun w i => obj_corner w (Z.of_nat i + 1)) ws l -> (0 < n)%nat -> (forall i, List.In i l -> (i < n)%nat) -> declared n ls -> declared n (LFace ws :: ls)
| DC_vert : forall n xs ls, declared (Datatypes.S n) ls -> declared n (LVert xs :: ls)
| DC_other : forall n ls, declared n ls -> declared n (LOther :: ls).

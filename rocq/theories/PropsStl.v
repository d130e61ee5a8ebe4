(** Property C71: STL files. *)
From Flocq Require Import Core.Core.
From Verif Require Import Base Spec SpecGeom SpecMesh SpecFile SpecSingle ModelVec ModelElem ModelPH ModelTree ModelStl FactsVec FactsStl FactsStl2 FactsStl3 FactsStl4 FactsSingle.
From Coq Require Import String List ZArith Lra Lia.
Import ListNotations.
Open Scope R_scope.

(** [recoded c x]: what is left of a number after the four bytes; [junk]: the content of the memory of the tree, which nobody initialises *)
Theorem C71_binary : forall c junk ph ts name, four_bytes c -> soup (pverts ph) (ph_faces ph) ts -> ts <> [] -> (Z.of_nat (length ts) < 2147483648)%Z -> length name = 80%nat ->
  (forall v j, first_corner (map (each3 (each (recoded c))) ts) v -> junk = Some j -> ~ about zTOL v j) ->
  exists bytes ph', zPH3DFWriteSTL_Bin c ph name = Some bytes /\ zSTLIsBin bytes = true /\
    zPH3DFReadSTL_Bin c junk bytes = Some (Some ph', name) /\
    welded zTOL (map (each3 (each (recoded c))) ts) (pverts ph') (map face_key (pfaces ph')).
Proof. exact stl_bin. Qed.
Print Assumptions C71_binary.
(** the code of IEEE single precision rounds to the nearest; numbers of single precision come back as they are *)
Theorem C71_single_precision : forall x, Rabs (to_single x) < bpow radix2 128 -> recoded single x = to_single x.
Proof. exact single_recoded. Qed.
Print Assumptions C71_single_precision.
Theorem C71_single_exact : forall ts, (forall v, List.In v (all_corners ts) -> is_single (vx v) /\ is_single (vy v) /\ is_single (vz v)) -> map (each3 (each (recoded single))) ts = ts.
Proof. exact single_tris. Qed.
Print Assumptions C71_single_exact.
(** [pr x]: the number denoted by the ten digits of x; any name of at least one word, the further ones neither facet nor endsolid *)
Theorem C71_text : forall pr junk ph ts w more, soup (pverts ph) (ph_faces ph) ts -> ts <> [] -> Forall plain_word more ->
  (forall v j, first_corner (map (each3 (each pr)) ts) v -> junk = Some j -> ~ about zTOL v j) ->
  exists text ph', zPH3DFWriteSTL_ASCII pr ph (w :: more) = Some text /\
    (forall fuel, (length text < fuel)%nat -> zPH3DFReadSTL_ASCII fuel junk text = Got (Some ph', Some w)) /\
    welded zTOL (map (each3 (each pr)) ts) (pverts ph') (map face_key (pfaces ph')).
Proof. exact stl_text. Qed.
Print Assumptions C71_text.
(** reading a file finds out by itself which of the two it is *)
Theorem C71_file : forall c junk lex ph ts name bytes, four_bytes c -> soup (pverts ph) (ph_faces ph) ts -> ts <> [] -> (Z.of_nat (length ts) < 2147483648)%Z -> length name = 80%nat ->
  (forall v j, first_corner (map (each3 (each (recoded c))) ts) v -> junk = Some j -> ~ about zTOL v j) ->
  zPH3DFWriteSTL_Bin c ph name = Some bytes ->
  exists ph', zPH3DReadFileSTL lex c junk bytes = Got (Some ph') /\ welded zTOL (map (each3 (each (recoded c))) ts) (pverts ph') (map face_key (pfaces ph')).
Proof. exact stl_file. Qed.
Print Assumptions C71_file.
Theorem C71_text_file : forall c junk lex pr ph ts w more s, soup (pverts ph) (ph_faces ph) ts -> ts <> [] -> Forall plain_word more ->
  (forall v j, first_corner (map (each3 (each pr)) ts) v -> junk = Some j -> ~ about zTOL v j) ->
  zPH3DFWriteSTL_ASCII pr ph (w :: more) = Some (lex s) -> Forall (fun b => (9 <= b < 256)%Z) s -> (Z.of_nat (length s) < 7579354134)%Z ->
  exists ph', zPH3DReadFileSTL lex c junk s = Got (Some ph') /\ welded zTOL (map (each3 (each pr)) ts) (pverts ph') (map face_key (pfaces ph')).
Proof. exact stl_text_file. Qed.
Print Assumptions C71_text_file.
(** reading ends on any text *)
Theorem C71_text_ends : forall junk, forall fuel s, (length s < fuel)%nat -> zPH3DFReadSTL_ASCII fuel junk s <> More.
Proof. exact stl_text_ends. Qed.
Print Assumptions C71_text_ends.
(** a text without endsolid gives no polyhedron *)
Theorem C71_unfinished : forall fuel junk, forall s ph name, ~ List.In (TW "endsolid") s -> zPH3DFReadSTL_ASCII fuel junk s = Got (ph, name) -> ph = None.
Proof. exact stl_unfinished. Qed.
Print Assumptions C71_unfinished.
(** without faces nothing is read back *)
Theorem C71_no_faces_binary : forall c junk ph name, pfaces ph = [] -> length name = 80%nat -> exists bytes, zPH3DFWriteSTL_Bin c ph name = Some bytes /\ zSTLIsBin bytes = true /\ zPH3DFReadSTL_Bin c junk bytes = Some (None, name).
Proof. exact stl_bin_empty. Qed.
Print Assumptions C71_no_faces_binary.
Theorem C71_no_faces_text : forall pr junk ph name, pfaces ph = [] -> Forall plain_word (tl name) -> exists text w, zPH3DFWriteSTL_ASCII pr ph name = Some text /\
  forall fuel, (length text < fuel)%nat -> zPH3DFReadSTL_ASCII fuel junk text = Got (None, Some w).
Proof. exact stl_text_empty. Qed.
Print Assumptions C71_no_faces_text.
(** without a name the first facet is lost *)
Theorem C71_unnamed_refuted : forall pr junk ph t ts, soup (pverts ph) (ph_faces ph) (t :: ts) -> ts <> [] ->
  (forall v j, first_corner (map (each3 (each pr)) ts) v -> junk = Some j -> ~ about zTOL v j) ->
  exists text ph', zPH3DFWriteSTL_ASCII pr ph [] = Some text /\
    (forall fuel, (length text < fuel)%nat -> zPH3DFReadSTL_ASCII fuel junk text = Got (Some ph', Some (TW "facet"))) /\
    welded zTOL (map (each3 (each pr)) ts) (pverts ph') (map face_key (pfaces ph')).
Proof. exact stl_unnamed. Qed.
Print Assumptions C71_unnamed_refuted.
(** a file that ends after a facet is read without complaint: the last facet is repeated *)
Theorem C71_truncated_refuted : forall c junk ph ts name k, four_bytes c -> soup (pverts ph) (ph_faces ph) ts -> (0 < k <= length ts)%nat -> (Z.of_nat (length ts) < 2147483648)%Z -> length name = 80%nat ->
  (forall v j, first_corner (map (each3 (each (recoded c))) ts) v -> junk = Some j -> ~ about zTOL v j) ->
  exists bytes ph' t, zPH3DFWriteSTL_Bin c ph name = Some bytes /\ nth_error ts (k - 1) = Some t /\
    zPH3DFReadSTL_Bin c junk (firstn (84 + 50 * k) bytes) = Some (Some ph', name) /\
    welded zTOL (map (each3 (each (recoded c))) (firstn k ts ++ repeat t (length ts - k))) (pverts ph') (map face_key (pfaces ph')).
Proof. exact stl_truncated. Qed.
Print Assumptions C71_truncated_refuted.
(** memory that happens to hold the first corner: the second corner takes its place in the first facet *)
Theorem C71_stale_root_refuted : forall c j ph v0 v1 v2 ts name, four_bytes c -> soup (pverts ph) (ph_faces ph) ((v0, v1, v2) :: ts) -> (Z.of_nat (length ts) < 2147483647)%Z -> length name = 80%nat ->
  let g := each (recoded c) in about zTOL (g v0) j -> ~ about zTOL (g v1) j ->
  exists bytes ph', zPH3DFWriteSTL_Bin c ph name = Some bytes /\ zPH3DFReadSTL_Bin c (Some j) bytes = Some (Some ph', name) /\
    welded zTOL (map (each3 g) ((v1, v1, v2) :: ts)) (pverts ph') (map face_key (pfaces ph')).
Proof. exact stale_all. Qed.
Print Assumptions C71_stale_root_refuted.
(** a tetrahedron with coordinates of single precision *)
Definition tetra : ph3 := PH [V3 0 0 0; V3 1 0 0; V3 0 1 0; V3 0 0 1] [FC 0 2 1 (V3 0 0 (-1)); FC 0 1 3 (V3 0 (-1) 0); FC 0 3 2 (V3 (-1) 0 0); FC 1 2 3 (V3 1 1 1)].
Definition tetra_tris : list tri := [(V3 0 0 0, V3 0 1 0, V3 1 0 0); (V3 0 0 0, V3 1 0 0, V3 0 0 1); (V3 0 0 0, V3 0 0 1, V3 0 1 0); (V3 1 0 0, V3 0 1 0, V3 0 0 1)].
Example C71_ex_soup : soup (pverts tetra) (ph_faces tetra) tetra_tris.
Proof. unfold soup, tetra_tris, ph_faces, tetra. cbn. repeat constructor. Qed.
Example C71_ex_single : map (each3 (each (recoded single))) tetra_tris = tetra_tris.
Proof. apply C71_single_exact. intros v H. assert (is_single 0) by (apply (single_integer 0); reflexivity). assert (is_single 1) by (apply (single_integer 1); reflexivity). cbn in H. repeat (destruct H as [<-|H]; [cbn; auto|]). destruct H. Qed.
Example C71_ex_apart : well_apart zTOL (all_corners tetra_tris).
Proof.
  intros p q Hp Hq (X & Y & Z). pose proof zTOL_small. pose proof zTOL_pos. cbn in Hp, Hq.
  assert (V : forall v, v = V3 0 0 0 \/ v = V3 0 1 0 \/ v = V3 1 0 0 \/ v = V3 0 0 1 \/ v = V3 0 0 0 \/ v = V3 1 0 0 \/ False -> True) by auto.
  apply Rabs_def2 in X, Y, Z.
  repeat (destruct Hp as [<-|Hp]; [repeat (destruct Hq as [<-|Hq]; [first [reflexivity|exfalso; cbn in *; Lra.lra]|]); destruct Hq|]). destruct Hp.
Qed.
Example C71_ex_binary : exists bytes ph', zPH3DFWriteSTL_Bin single tetra (repeat 32%Z 80) = Some bytes /\ zSTLIsBin bytes = true /\
  zPH3DFReadSTL_Bin single (Some (V3 5 5 5)) bytes = Some (Some ph', repeat 32%Z 80) /\ welded zTOL tetra_tris (pverts ph') (map face_key (pfaces ph')).
Proof.
  assert (Q := C71_binary single (Some (V3 5 5 5)) tetra tetra_tris (repeat 32%Z 80) single_four C71_ex_soup). rewrite C71_ex_single in Q. apply Q; [discriminate|reflexivity|reflexivity|].
  intros v j (a & b & r & E) Hj (X & _). injection Hj as <-. injection E as <- _ _ _. pose proof zTOL_small. apply Rabs_def2 in X. cbn in X. Lra.lra.
Qed.
Example C71_ex_stale : about zTOL (V3 0 0 0) (V3 0 0 0) /\ ~ about zTOL (V3 0 1 0) (V3 0 0 0).
Proof. split; [apply about_refl|]. intros (_ & Y & _). pose proof zTOL_small. apply Rabs_def2 in Y. cbn in Y. Lra.lra. Qed.

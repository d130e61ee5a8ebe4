(** C82: PLY files. *)
From Coq Require Import Ascii String.
From Verif Require Import Base Spec SpecPly ModelElem ModelPH ModelPly FactsPly FactsPly2 FactsPly3 FactsPly4 FactsPly5.
From Coq Require Import List.
From Coq Require Lra Lia.
Import ListNotations.
Open Scope R_scope.

(** a polyhedron written as text is read back: [pr] is what remains of a number written with ten digits; same vertices, same faces, each with its normal *)
Theorem C82_text_round_trip : forall c junk pr ph rest, indices_below (length (pverts ph)) (ph_faces ph) ->
  let '(lines, ds) := zPH3DWriteFilePLY_ASCII pr ph in
  exists fs, zPH3DReadFilePLY c junk lines (ds ++ rest) = Some (Some (PH (map (each pr) (pverts ph)) fs)) /\ faces_are (map (each pr) (pverts ph)) (map face_key fs) (ph_faces ph).
Proof. exact ply_text. Qed.
Print Assumptions C82_text_round_trip.
(** the same for a binary file: [recoded cd] is what remains of a number stored in four bytes (see C71_single_precision) *)
Theorem C82_binary_round_trip : forall cd eight8 junk ph rest, four_bytes cd -> indices_below (length (pverts ph)) (ph_faces ph) -> (Z.of_nat (length (pverts ph)) <= 2147483648)%Z ->
  let '(lines, ds) := zPH3DWriteFilePLY_Bin (fenc cd) ph in
  exists fs, zPH3DReadFilePLY (Codes (fdec cd) eight8) junk lines (ds ++ rest) = Some (Some (PH (map (each (recoded cd)) (pverts ph)) fs)) /\
  faces_are (map (each (recoded cd)) (pverts ph)) (map face_key fs) (ph_faces ph).
Proof. exact ply_binary. Qed.
Print Assumptions C82_binary_round_trip.
(** any file with vertices followed by polygons of at most three corners, in any of the three formats: vertices from the properties x, y, z wherever they are among others and of whatever type, faces from the lists; comments, further properties and elements are read over *)
Theorem C82_triangles : forall c junk f lt v g es lines ds rest vs, document lt v g es -> header f es lines -> body c f es ds -> positions v vs -> all_below (length vs) (polygons_opt g) ->
  (forall l, List.In l (polygons_opt g) -> (length l <= 3)%nat) ->
  exists fs, zPH3DReadFilePLY c junk lines (ds ++ rest) = Some (Some (PH vs fs)) /\ faces_are vs (map face_key fs) (flat_map fan (polygons_opt g)).
Proof. exact ply_triangles. Qed.
Print Assumptions C82_triangles.
(** polygons of any number of corners: every polygon gives the triangles on its first side *)
Theorem C82_polygons : forall c junk f lt v g es lines ds rest vs, document lt v g es -> header f es lines -> body c f es ds -> positions v vs -> all_below (length vs) (polygons_opt g) ->
  exists fs, zPH3DReadFilePLY c junk lines (ds ++ rest) = Some (Some (PH vs fs)) /\ faces_are vs (map face_key fs) (flat_map on_first_side (polygons_opt g)).
Proof. exact ply_reads. Qed.
Print Assumptions C82_polygons.
(** with a polygon of four or more corners the result is not an oriented surface: its first side is used more than once in the same direction *)
Theorem C82_polygons_refuted : forall c junk f lt v g es lines ds rest vs l, document lt v g es -> header f es lines -> body c f es ds -> positions v vs -> all_below (length vs) (polygons_opt g) ->
  List.In l (polygons_opt g) -> (4 <= length l)%nat ->
  exists ph, zPH3DReadFilePLY c junk lines (ds ++ rest) = Some (Some ph) /\ ~ NoDup (all_sides (ph_faces ph)) /\ ~ oriented (ph_faces ph).
Proof. exact ply_polygons_refuted. Qed.
Print Assumptions C82_polygons_refuted.
(** the unit square read as one polygon leaves a part of the square uncovered *)
Theorem C82_square_refuted : forall c junk, exists v g es lines ds ph p,
  document ("uchar", "int")%string v (Some g) es /\ header PText es lines /\ body c PText es ds /\ positions v square_points /\ polygons g = [[0; 1; 2; 3]%nat] /\
  zPH3DReadFilePLY c junk lines ds = Some (Some ph) /\
  in_triangle (V3 0 0 0) (V3 1 1 0) (V3 0 1 0) p /\
  forall f a b d, List.In f (ph_faces ph) -> triangle_of (pverts ph) f (a, b, d) -> ~ in_triangle a b d p.
Proof. exact ply_square_refuted. Qed.
Print Assumptions C82_square_refuted.
(** a file without a property z: z is the first number of the row *)
Theorem C82_missing_refuted : forall c junk f lt v g es lines ds rest vs, document lt v g es -> header f es lines -> body c f es ds -> lacks (el_props v) "z" ->
  Forall2 (fun r p => value (el_props v) r "x" (vx p) /\ value (el_props v) r "y" (vy p) /\ nth_error r 0 = Some (CNumber (vz p))) (el_rows v) vs ->
  all_below (length vs) (polygons_opt g) ->
  exists fs, zPH3DReadFilePLY c junk lines (ds ++ rest) = Some (Some (PH vs fs)).
Proof. exact ply_missing. Qed.
Print Assumptions C82_missing_refuted.
(** a polygon that names a vertex that is not there is undefined behaviour *)
Theorem C82_beyond : forall c junk f lt v g es lines ds rest vs l, document lt v (Some g) es -> header f es lines -> body c f es ds -> positions v vs ->
  List.In l (polygons g) -> (3 <= length l)%nat -> (exists i, List.In i l /\ (length vs <= i)%nat) -> zPH3DReadFilePLY c junk lines (ds ++ rest) = None.
Proof. exact ply_beyond. Qed.
Print Assumptions C82_beyond.
(** so is a file with the polygons before the vertices *)
Theorem C82_faces_first_refuted : forall c junk f lt pre g post lines ds rest l, Forall read_over pre -> el_name g = "face"%string ->
  (forall e, List.In e (pre ++ g :: post) -> known_name (el_name e) /\ in_limits e /\ lists_are lt e) -> (length (pre ++ g :: post) <= 5)%nat ->
  header f (pre ++ g :: post) lines -> body c f (pre ++ g :: post) ds -> List.In l (polygons g) -> (3 <= length l)%nat ->
  zPH3DReadFilePLY c junk lines (ds ++ rest) = None.
Proof. exact ply_faces_first. Qed.
Print Assumptions C82_faces_first_refuted.
(** an element of twelve or more properties is refused *)
Theorem C82_properties : forall c junk f pre e post lines ds, (forall a, List.In a pre -> known_name (el_name a) /\ in_limits a) -> (length pre < 5)%nat -> known_name (el_name e) ->
  (forall p, List.In p (el_props e) -> match p with Number t _ => known t | Indices tn t => known tn /\ known t end) -> (12 <= length (el_props e))%nat ->
  header f (pre ++ e :: post) lines -> zPH3DReadFilePLY c junk lines ds = Some None.
Proof. exact ply_properties. Qed.
Print Assumptions C82_properties.
(** so is a file of more than five elements *)
Theorem C82_elements : forall c junk f pre e post lines ds, (forall a, List.In a pre -> known_name (el_name a) /\ in_limits a) -> length pre = 5%nat ->
  header f (pre ++ e :: post) lines -> zPH3DReadFilePLY c junk lines ds = Some None.
Proof. exact ply_elements. Qed.
Print Assumptions C82_elements.
(** a file whose header does not end is never read with success *)
Theorem C82_unfinished : forall c junk lines ds ph, Forall (fun l => forall r, l <> HW "end_header"%string :: r) lines -> zPH3DReadFilePLY c junk lines ds <> Some (Some ph).
Proof. exact ply_unfinished. Qed.
Print Assumptions C82_unfinished.
(** nor is one that has a list among the properties of vertices, edges or materials *)
Theorem C82_lists : forall c junk f es lines e tn t ds ph, (forall a, List.In a es -> known_name (el_name a) /\ in_limits a) -> (length es <= 5)%nat -> header f es lines ->
  List.In e es -> List.In (el_name e) ["vertex"; "edge"; "material"]%string -> List.In (Indices tn t) (el_props e) -> el_rows e <> [] ->
  zPH3DReadFilePLY c junk lines ds <> Some (Some ph).
Proof. exact ply_lists. Qed.
Print Assumptions C82_lists.
(** a grid before the polygons: a list of the grid is read over with the wrong size, and the polygon is lost *)
Theorem C82_grid_refuted : forall c junk, exists v grid g lines ds vs,
  header PLittle [v; grid; g] lines /\ body c PLittle [v; grid; g] ds /\ positions v vs /\ length vs = 3%nat /\ el_name grid = "range_grid"%string /\ polygons g = [[0; 1; 2]%nat] /\
  zPH3DReadFilePLY c junk lines ds = Some (Some (PH vs [])).
Proof. exact ply_grid_refuted. Qed.
Print Assumptions C82_grid_refuted.
(** the list types of a later element are applied to the polygons: another triangle is read *)
Theorem C82_types_refuted : forall c junk, exists v g grid lines ds vs n,
  header PLittle [v; g; grid] lines /\ body c PLittle [v; g; grid] ds /\ positions v vs /\ length vs = 3%nat /\ el_name grid = "range_grid"%string /\ polygons g = [[0; 1; 2]%nat] /\
  zPH3DReadFilePLY c junk lines ds = Some (Some (PH vs [FC 0 0 0 n])).
Proof. exact ply_types_refuted. Qed.
Print Assumptions C82_types_refuted.
(** a file with a colour and a comment, coordinates in another order: a document with a triangle *)
Example C82_ex : let v := Element "vertex" [Number "uchar" "red"; Number "double" "z"; Number "float" "x"; Number "short" "y"]
      [[CNumber 255; CNumber 3; CNumber 1; CNumber 2]; [CNumber 255; CNumber 6; CNumber 4; CNumber 5]; [CNumber 255; CNumber 9; CNumber 7; CNumber 8]] in
  let g := Element "face" [Number "uchar" "flags"; Indices "uchar" "int"] [[CNumber 0; CIndices [0; 1; 2]%nat]] in
  document ("uchar", "int")%string v (Some g) [v; g] /\ positions v [V3 1 2 3; V3 4 5 6; V3 7 8 9] /\ all_below 3 (polygons_opt (Some g)) /\
  header PText [v; g] (lines_of PText [v; g]) /\ polygons g = [[0; 1; 2]%nat].
Proof.
  intros v g.
  assert (KF : known "float") by (exists KFloat; reflexivity). assert (KD : known "double") by (exists KDouble; reflexivity). assert (KS : known "short") by (exists (KInt 2); reflexivity).
  assert (KU : known "uchar") by (exists (KInt 1); reflexivity). assert (KI : known "int") by (exists (KInt 4); reflexivity).
  split; [|split; [|split; [|split; [apply lines_header|reflexivity]]]].
  - split; [cbn; Lia.lia|]. split.
    + intros e [<-|[<-|[]]]; (split; [split; [cbn; Lia.lia|]|]); intros p.
      * intros [<-|[<-|[<-|[<-|[]]]]]; assumption.
      * intros t [E|[E|[E|[E|[]]]]]; discriminate E.
      * intros [<-|[<-|[]]]; [assumption|split; assumption].
      * intros t [E|[E|[]]]; [discriminate E|]. injection E as <- <-. reflexivity.
    + split; [reflexivity|]. split; [intros p [<-|[<-|[<-|[<-|[]]]]]; eauto|]. exists [], []. split; [constructor|]. split; [constructor|]. split; [reflexivity|]. exists []. split; [constructor|reflexivity].
  - unfold positions. cbn [el_rows el_props v]. repeat constructor; cbn [vx vy vz];
      [exists 2%nat|exists 3%nat|exists 1%nat|exists 2%nat|exists 3%nat|exists 1%nat|exists 2%nat|exists 3%nat|exists 1%nat];
      (split; [split; [eexists; reflexivity|]|reflexivity]); intros [|[|[|[|i]]]] t E; try reflexivity; try discriminate E; destruct i; discriminate E.
  - intros l i [<-|[]] [<-|[<-|[<-|[]]]]; Lia.lia.
Qed.

(** C88: COLLADA files. *)
From Coq Require Import Ascii String Reals ZArith.
From Verif Require Import Base Spec SpecPly SpecObj ModelStl ModelDae FactsAlg FactsDae FactsDae2 FactsDae3.
From Coq Require Import List Permutation.
From Coq Require Lra Lia Psatz.
Import ListNotations.
Open Scope R_scope.

(** every document of triangles is read: its points where the last node puts them, its triangles with their normals; whatever the library does with a failure, and whatever is in memory *)
Theorem C88_read : forall strict junk root ms nodes, dae_doc root ms nodes -> (forall d, List.In d ms -> in_mesh d) -> (forall x, List.In x nodes -> Forall fair (fst x)) ->
  exists fs, zPH3DReadFileDAE strict junk root = DPoly (flat_map (placed nodes) ms) (map Some fs) /\ faces_are (flat_map (placed nodes) ms) (map face_key fs) (all_tris ms 0).
Proof. exact dae_read. Qed.
Print Assumptions C88_read.
(** a mesh that no node shows stays where it is, and of several nodes that show it the last counts *)
Theorem C88_shown : forall nodes os d, (shown nodes (dm_id d) = [] -> placed nodes d = dm_pts d) /\ placed (nodes ++ [(os, Some (dm_id d))]) d = map (done os) (dm_pts d).
Proof. exact dae_shown. Qed.
Print Assumptions C88_shown.
(** the placements of a node without a matrix: the moves are done last, the others in reverse *)
Theorem C88_placements : forall os p, no_matrix os -> done os p = meant (moves os ++ rev (others os)) p.
Proof. exact done_plain. Qed.
Print Assumptions C88_placements.
(** a matrix: what stands before it is dropped, and it is transposed *)
Theorem C88_matrix : forall os1 m u os2 p, no_matrix os2 -> done (os1 ++ PMatrix m u :: os2) p = meant (PMove u :: moves os2 ++ rev (others os2) ++ [PMatrix (mtr m) (V3 0 0 0)]) p.
Proof. exact done_matrix. Qed.
Print Assumptions C88_matrix.
(** moves first, then turns and scales that commute: as the standard has it *)
Theorem C88_standard : forall us ls p, (forall o, List.In o ls -> match o with PTurn _ _ | PScale _ => True | _ => False end) ->
  (forall o o' q, List.In o ls -> List.In o' ls -> meant1 o (meant1 o' q) = meant1 o' (meant1 o q)) -> done (map PMove us ++ ls) p = meant (map PMove us ++ ls) p.
Proof. exact done_standard. Qed.
Print Assumptions C88_standard.
(** a matrix is read as the standard has it just if it is symmetric *)
Theorem C88_matrix_iff : forall m u, (forall p, done [PMatrix m u] p = meant [PMatrix m u] p) <-> symmetric m.
Proof. exact matrix_iff. Qed.
Print Assumptions C88_matrix_iff.
(** two turns, a turn and a move, a turn and a scale are not done as the standard has it *)
Theorem C88_order_refuted : (exists p, done [PTurn (V3 1 0 0) 90; PTurn (V3 0 1 0) 90] p <> meant [PTurn (V3 1 0 0) 90; PTurn (V3 0 1 0) 90] p) /\
  (exists p, done [PTurn (V3 0 0 1) 90; PMove (V3 1 0 0)] p <> meant [PTurn (V3 0 0 1) 90; PMove (V3 1 0 0)] p) /\
  (exists p, done [PTurn (V3 0 0 1) 90; PScale (V3 2 1 1)] p <> meant [PTurn (V3 0 0 1) 90; PScale (V3 2 1 1)] p).
Proof. exact order_refuted. Qed.
Print Assumptions C88_order_refuted.
(** a polygon of four corners becomes a face that is never made *)
Theorem C88_polygon_refuted : forall strict junk, exists vs, zPH3DReadFileDAE strict junk (ex_root ex_quad []) = DPoly vs [None].
Proof. exact polygon_refuted. Qed.
Print Assumptions C88_polygon_refuted.
(** a file that is not COLLADA, or has no geometries: a list that was never made is destroyed *)
Theorem C88_undefined : forall strict junk root, xname root <> "COLLADA"%string \/ kids root ["library_geometries"%string] = [] -> zPH3DReadFileDAE strict junk root = DUndef.
Proof. exact dae_undefined. Qed.
Print Assumptions C88_undefined.
(** no geometry: nothing is returned *)
Theorem C88_empty : forall strict junk root lg, xname root = "COLLADA"%string -> kids root ["library_geometries"; "library_visual_scenes"]%string = [lg] -> xname lg = "library_geometries"%string -> kids lg ["geometry"%string] = [] ->
  zPH3DReadFileDAE strict junk root = DNull.
Proof. exact dae_empty. Qed.
Print Assumptions C88_empty.
(** two triangles, shown by one node that moves and turns them *)
Definition ex_mesh : dmesh := DM "g" [V3 0 0 0; V3 1 0 0; V3 0 1 0; V3 0 0 1] [[(0, 1, 2); (0, 2, 3)]%nat].
Definition ex_places : list place := [PMove (V3 1 2 3); PTurn (V3 0 0 1) 90].
Ltac attrs := split; [repeat constructor; cbn; intuition discriminate|cbn; tauto].
Ltac digits ds := match goal with |- numeral ?s ?n => replace n with (digits_value ds) by (vm_compute; reflexivity); change s with (digits_text ds); apply NU_plain; split; [discriminate|repeat constructor] end.
Lemma ex_source_doc : source_doc ex_source "pos" ["X"; "Y"; "Z"]%char 4 (map word [0;0;0; 1;0;0; 0;1;0; 0;0;1]%Z).
Proof.
  split; [attrs|]. eexists _, _, _. split; [reflexivity|]. split; [reflexivity|]. split; [reflexivity|]. split; [exists "12"%string; split; [attrs|digits [1; 2]%nat]|]. split; [reflexivity|]. split; [reflexivity|].
  split; [exists "4"%string; split; [attrs|digits [4]%nat]|]. split; [exists "3"%string; split; [attrs|digits [3]%nat]|]. split; [cbn; Lia.lia|]. repeat constructor; (exists ""%string; attrs).
Qed.
Lemma ex_mesh_doc : mesh_doc (XN "geometry" [("id", "g")]%string None [XN "mesh" [] None [ex_source; ex_vertices; ex_two]]) ex_mesh.
Proof.
  split; [attrs|]. exists (XN "mesh" [] None [ex_source; ex_vertices; ex_two]), [], ex_source, [], ex_vertices, "pos"%string, "v"%string, ["X"; "Y"; "Z"]%char, (map word [0;0;0; 1;0;0; 0;1;0; 0;0;1]%Z).
  split; [reflexivity|]. split; [reflexivity|]. split; [intros k []|]. split; [intros k []|]. split; [exact ex_source_doc|].
  split; [exists [0; 1; 2]%nat; split; [apply Permutation_refl|]; split; [constructor; [right; reflexivity|constructor; [right; reflexivity|constructor; [right; reflexivity|constructor]]]|reflexivity]|]. split; [reflexivity|].
  split; [split; [attrs|]; eexists [], _, []; split; [reflexivity|]; split; [attrs|]; split; [attrs|]; intros k []|].
  constructor; [|constructor]. split; [exists "2"%string; split; [attrs|digits [2]%nat]|]. eexists [0; 1]%nat, 0%nat, _, _. split; [split|].
  - constructor; [split; [exists "0"%string; split; [attrs|digits [0]%nat]|]; intros _; split; [reflexivity|attrs]|]. constructor; [|constructor]. split; [exists "1"%string; split; [attrs|digits [1]%nat]|]. cbn. intuition discriminate.
  - eexists. split; [left; reflexivity|]. attrs.
  - split; [reflexivity|]. split; [reflexivity|]. split.
    + right. eexists _, _. split; [reflexivity|]. split; [reflexivity|]. intros [|[|i]] H; [reflexivity|reflexivity|cbn in H; Lia.lia].
    + intros [|[|i]] t H; [injection H as <-; repeat split|injection H as <-; repeat split|destruct i; discriminate].
Qed.
Example C88_ex : dae_doc (ex_root ex_two [ex_node]) [ex_mesh] [(ex_places, Some "g"%string)] /\ in_mesh ex_mesh /\ Forall fair ex_places /\ no_matrix ex_places.
Proof.
  split; [|split; [|split]].
  - split; [reflexivity|]. split; [repeat constructor; cbn; tauto|]. split; [discriminate|]. eexists _, _. split; [reflexivity|]. split; [reflexivity|]. split; [constructor; [exact ex_mesh_doc|constructor]|].
    right. eexists _, _. split; [reflexivity|]. split; [reflexivity|]. split; [reflexivity|]. constructor; [|constructor]. split.
    + constructor; [eexists; split; [reflexivity|]; split; reflexivity|]. constructor; [eexists; split; [reflexivity|]; split; reflexivity|constructor].
    + eexists. split; [reflexivity|attrs].
  - intros a b c H. cbn in H. destruct H as [H|[H|[]]]; injection H as <- <- <-; cbn; Lia.lia.
  - constructor; [exact I|]. constructor; [|constructor]. split.
    + unfold norm, dot. cbn [vx vy vz]. replace (0 * 0 + 0 * 0 + 1 * 1) with 1 by Lra.lra. exact sqrt_1.
    + right. unfold negligible. intros H. replace (90 * PI / 180) with (PI / 2) in H by field. pose proof PI2_1. pose proof zTOL_small. destruct H as (_ & _ & H). unfold vscale in H. cbn [vz] in H. rewrite Rmult_1_r, Rabs_right in H by Lra.lra. Lra.lra.
  - intros m t [H|[H|[]]]; discriminate.
Qed.
(** they are turned, then moved *)
Example C88_ex_place : done ex_places (V3 1 0 0) = V3 1 3 3.
Proof. unfold ex_places, done. cbn [done_from linear1]. rewrite turn90. apply vec3_ext; unfold vadd, cross, vscale, dot; cbn [vx vy vz]; Lra.lra. Qed.
Example C88_ex_standard p : done ex_places p = meant ex_places p.
Proof. apply (done_standard [V3 1 2 3] [PTurn (V3 0 0 1) 90]); [intros o [<-|[]]; exact I|]. intros o o' q [<-|[]] [<-|[]]. reflexivity. Qed.
(** files that are not read *)
Example C88_ex_other : xname (XN "svg" [] None []) <> "COLLADA"%string /\ kids (XN "COLLADA" [] None [XN "asset" [] None []]) ["library_geometries"%string] = [] /\
  kids (XN "COLLADA" [] None [XN "library_geometries" [] None []]) ["library_geometries"; "library_visual_scenes"]%string = [XN "library_geometries" [] None []].
Proof. split; [discriminate|]. split; reflexivity. Qed.

(** Vocabulary for DAE (COLLADA) files: trees of elements and the meshes they describe. *)
From Coq Require Export Ascii String List ZArith Permutation.
Export ListNotations.
From Verif Require Export Spec SpecFile SpecPly SpecObj.
Open Scope R_scope.

(** a word of a text: the integer and the number that it is read as *)
Record xword := XW { wint : Z; wreal : R }.
Definition wnone : xword := XW 0 0.
(** an element: name, attributes, words of its text if there is any, elements in it *)
Inductive xnode := XN (name : string) (attrs : list (string * string)) (text : option (list xword)) (kids : list xnode).
Definition xname (n : xnode) : string := let '(XN a _ _ _) := n in a.
Definition xattrs (n : xnode) : list (string * string) := let '(XN _ a _ _) := n in a.
Definition xtext (n : xnode) : option (list xword) := let '(XN _ _ t _) := n in t.
Definition xkids (n : xnode) : list xnode := let '(XN _ _ _ k) := n in k.

(** an attribute, wherever it stands; no attribute is given twice *)
Definition has (n : xnode) (key val : string) : Prop := NoDup (map fst (xattrs n)) /\ List.In (key, val) (xattrs n).
Definition counted (n : xnode) (key : string) (k : nat) : Prop := exists s, has n key s /\ numeral s (Z.of_nat k).
(** the elements of given names among the children *)
Definition among (names : list string) (n : xnode) : bool := existsb (String.eqb (xname n)) names.
Definition kids (n : xnode) (names : list string) : list xnode := filter (among names) (xkids n).
Definition local (id : string) : string := String "#" id.

(** ** Sources: columns named by letters *)
Definition column_named (c : ascii) (n : xnode) : Prop := exists r, has n "name" (String c r).
(** a source with its columns and the words of its table *)
Definition source_doc (n : xnode) (id : string) (cols : list ascii) (rows : nat) (ws : list xword) : Prop :=
  has n "id" id /\ exists fa tc ac,
  kids n ["float_array"; "technique_common"]%string = [fa; tc] /\ xname fa = "float_array"%string /\ xname tc = "technique_common"%string /\
  counted fa "count" (rows * length cols) /\ xtext fa = Some ws /\
  hd_error (kids tc ["accessor"%string]) = Some ac /\ counted ac "count" rows /\ counted ac "stride" (length cols) /\
  (length cols <= 3)%nat /\ Forall2 column_named cols (kids ac ["param"%string]).
(** letters of the coordinates *)
Definition axis_letter (c : ascii) (a : nat) : Prop :=
  match a with O => c = "x"%char \/ c = "X"%char | 1%nat => c = "y"%char \/ c = "Y"%char | _ => c = "z"%char \/ c = "Z"%char end.
(** the table lists the coordinates of points, in the order of its columns *)
Definition table_of (cols : list ascii) (ws : list xword) (pts : list vec3) : Prop :=
  exists axes, Permutation axes [0; 1; 2]%nat /\ Forall2 axis_letter cols axes /\
  firstn (3 * length pts) (map wreal ws) = flat_map (fun p => map (vnth p) axes) pts.

(** ** Meshes *)
(** the positions are those of source [src] *)
Definition vertices_doc (n : xnode) (vid src : string) : Prop :=
  has n "id" vid /\ exists pre inp post, kids n ["input"%string] = pre ++ inp :: post /\
  has inp "semantic" "POSITION" /\ has inp "source" (local src) /\ forall k, List.In k pre -> ~ List.In ("semantic", "POSITION")%string (xattrs k).
(** the numbers of the vertices of a triangle, among [ni] words for each corner *)
Definition corner_word (ws : list xword) (ni vo i j : nat) : Z := wint (nth ((3 * i + j) * ni + vo) ws wnone).
Definition tri_words (ws : list xword) (ni vo i : nat) (t : nat * nat * nat) : Prop :=
  let '(a, b, c) := t in corner_word ws ni vo i 0 = Z.of_nat a /\ corner_word ws ni vo i 1 = Z.of_nat b /\ corner_word ws ni vo i 2 = Z.of_nat c.
(** one group of triangles; each corner has a word for every input *)
Definition inputs_doc (l : list xnode) (vid : string) (offs : list nat) (vo : nat) : Prop :=
  Forall2 (fun k o => counted k "offset" o /\ (List.In ("semantic", "VERTEX")%string (xattrs k) -> o = vo /\ has k "source" (local vid))) l offs /\
  exists k, List.In k l /\ has k "semantic" "VERTEX".
Definition words_per_corner (offs : list nat) : nat := Datatypes.S (fold_right Nat.max 0%nat offs).
Definition prim_doc (vid : string) (n : xnode) (ts : list (nat * nat * nat)) : Prop :=
  counted n "count" (length ts) /\ exists offs vo pn ws,
  inputs_doc (kids n ["input"%string]) vid offs vo /\ kids n ["p"%string] = [pn] /\ xtext pn = Some ws /\
  (kids n ["vcount"%string] = [] \/ exists vn cs, kids n ["vcount"%string] = [vn] /\ xtext vn = Some cs /\ forall i, (i < length ts)%nat -> wint (nth i cs wnone) = 3%Z) /\
  forall i t, nth_error ts i = Some t -> tri_words ws (words_per_corner offs) vo i t.
(** a mesh: its name, its points, its groups of triangles *)
Record dmesh := DM { dm_id : string; dm_pts : list vec3; dm_tris : list (list (nat * nat * nat)) }.
Definition mesh_doc (g : xnode) (d : dmesh) : Prop :=
  has g "id" (dm_id d) /\ exists m pre sn post vn src vid cols ws,
  kids g ["mesh"%string] = [m] /\ kids m ["source"%string] = pre ++ sn :: post /\
  (forall k, List.In k pre -> exists i cs r w, source_doc k i cs r w /\ i <> src) /\ (forall k, List.In k post -> exists i cs r w, source_doc k i cs r w) /\
  source_doc sn src cols (length (dm_pts d)) ws /\ table_of cols ws (dm_pts d) /\
  kids m ["vertices"%string] = [vn] /\ vertices_doc vn vid src /\
  Forall2 (prim_doc vid) (kids m ["polylist"; "triangles"]%string) (dm_tris d).

(** ** Placements *)
Inductive place := PMatrix (rows : mat3) (t : vec3) | PMove (t : vec3) | PTurn (axis : vec3) (deg : R) | PScale (k : vec3).
Definition mat_rows (m : mat3) (t : vec3) : list R :=
  [cxx m; cyx m; czx m; vx t; cxy m; cyy m; czy m; vy t; cxz m; cyz m; czz m; vz t; 0; 0; 0; 1].
(** an element that describes a placement; a matrix is written row by row *)
Definition place_doc (n : xnode) (o : place) : Prop :=
  exists ws, xtext n = Some ws /\
  match o with
  | PMatrix m t => xname n = "matrix"%string /\ firstn 16 (map wreal ws) = mat_rows m t
  | PMove t => xname n = "translate"%string /\ firstn 3 (map wreal ws) = [vx t; vy t; vz t]
  | PTurn a q => xname n = "rotate"%string /\ firstn 4 (map wreal ws) = [vx a; vy a; vz a; q]
  | PScale k => xname n = "scale"%string /\ firstn 3 (map wreal ws) = [vx k; vy k; vz k]
  end.
Definition stretch (k p : vec3) : vec3 := V3 (vx k * vx p) (vy k * vy p) (vz k * vz p).
(** what a placement does to a point, and a list of them: in the standard the last is applied first *)
Definition turn (a : vec3) (deg : R) (p : vec3) : vec3 := rodrigues a (deg * PI / 180) p.
Definition meant1 (o : place) (p : vec3) : vec3 :=
  match o with PMatrix m t => vadd (mvec m p) t | PMove t => vadd p t | PTurn a q => turn a q p | PScale k => stretch k p end.
Definition meant (os : list place) (p : vec3) : vec3 := fold_right meant1 p os.
(** turns have a unit axis and an angle that is zero or not negligible *)
Definition fair (o : place) : Prop :=
  match o with PTurn a q => norm a = 1 /\ (q * PI / 180 = 0 \/ ~ negligible (vscale (q * PI / 180) a)) | _ => True end.
(** a node of the scene: placements, and the mesh that it shows *)
Definition node_doc (n : xnode) (x : list place * option string) : Prop :=
  Forall2 place_doc (kids n ["matrix"; "translate"; "rotate"; "scale"]%string) (fst x) /\
  match snd x with
  | None => kids n ["instance_geometry"%string] = []
  | Some id => exists i, kids n ["instance_geometry"%string] = [i] /\ has i "url" (local id)
  end.
(** ** Documents *)
Definition dae_doc (root : xnode) (ms : list dmesh) (nodes : list (list place * option string)) : Prop :=
  xname root = "COLLADA"%string /\ NoDup (map dm_id ms) /\ ms <> [] /\ exists lg rest,
  kids root ["library_geometries"; "library_visual_scenes"]%string = lg :: rest /\ xname lg = "library_geometries"%string /\
  Forall2 mesh_doc (kids lg ["geometry"%string]) ms /\
  ((rest = [] /\ nodes = []) \/
   exists lv sc, rest = [lv] /\ xname lv = "library_visual_scenes"%string /\ hd_error (kids lv ["visual_scene"%string]) = Some sc /\ Forall2 node_doc (kids sc ["node"%string]) nodes).
(** where a mesh is shown: the placements of the nodes that show it *)
Definition shown (nodes : list (list place * option string)) (id : string) : list (list place) :=
  flat_map (fun x => match snd x with Some i => if String.eqb i id then [fst x] else [] | None => [] end) nodes.
(** triangles of all meshes, vertices numbered from [k] on *)
Fixpoint all_tris (ms : list dmesh) (k : nat) : list (nat * nat * nat) :=
  match ms with
  | [] => []
  | d :: ms => map (fun t => let '(a, b, c) := t in (k + a, k + b, k + c)%nat) (concat (dm_tris d)) ++ all_tris ms (k + length (dm_pts d))
  end.
(** the triangles name points of their mesh *)
Definition in_mesh (d : dmesh) : Prop := forall a b c, List.In (a, b, c) (concat (dm_tris d)) -> (a < length (dm_pts d) /\ b < length (dm_pts d) /\ c < length (dm_pts d))%nat.
(** what is done with the placements of a node: turns and scales in the order of the file,
    then all moves; a matrix replaces what came before and is transposed *)
Definition linear1 (o : place) (p : vec3) : vec3 := match o with PMatrix m _ => mvec (mtr m) p | PMove _ => p | PTurn a q => turn a q p | PScale k => stretch k p end.
Fixpoint done_from (os : list place) (L : vec3 -> vec3) (t : vec3) : vec3 -> vec3 :=
  match os with
  | [] => fun p => vadd (L p) t
  | PMatrix m u :: os => done_from os (mvec (mtr m)) u
  | PMove u :: os => done_from os L (vadd t u)
  | o :: os => done_from os (fun p => linear1 o (L p)) t
  end.
Definition done (os : list place) : vec3 -> vec3 := done_from os (fun p => p) (V3 0 0 0).
(** the last node that shows a mesh places it; without one it stays where it is *)
Definition placed (nodes : list (list place * option string)) (d : dmesh) : list vec3 := map (done (last (shown nodes (dm_id d)) [])) (dm_pts d).
(** the moves among placements, and the others *)
Definition moves (os : list place) : list place := filter (fun o => match o with PMove _ => true | _ => false end) os.
Definition others (os : list place) : list place := filter (fun o => match o with PMove _ => false | _ => true end) os.
Definition no_matrix (os : list place) : Prop := forall m t, ~ List.In (PMatrix m t) os.

(** Vocabulary for PLY files: a header that lists the elements of the file with their properties,
    followed by the values of each element, row by row. *)
From Coq Require Export Ascii String List ZArith.
Export ListNotations.
From Verif Require Export SpecFile.
Open Scope R_scope.

(** words of a header line: a whole number or something else; pieces of what follows the header:
    a number of a text, or a byte *)
Inductive hword := HW (w : string) | HI (n : Z).
Inductive datum := DW (x : R) | DB (b : Z).

(** types of numbers: whole numbers of so many bytes, single and double precision *)
Inductive kind := KInt (bytes : nat) | KFloat | KDouble.
Definition kind_named (w : string) : option kind :=
  (if (w =? "char") || (w =? "uchar") then Some (KInt 1)
   else if (w =? "short") || (w =? "ushort") then Some (KInt 2)
   else if (w =? "int") || (w =? "uint") then Some (KInt 4)
   else if w =? "float" then Some KFloat
   else if w =? "double" then Some KDouble
   else None)%string%bool.
(** bytes of a whole number, lowest first *)
Fixpoint low_first (k : nat) (n : Z) : list Z := match k with O => [] | Datatypes.S k => (n mod 256)%Z :: low_first k (n / 256)%Z end.
(** what four and eight bytes denote *)
Record codes := Codes { four : list Z -> R; eight : list Z -> R }.
Inductive ply_format := PText | PLittle | PBig.
Definition format_name (f : ply_format) : string :=
  match f with PText => "ascii" | PLittle => "binary_little_endian" | PBig => "binary_big_endian" end%string.
(** [denotes c f k x ds]: in a file of the format [f] the pieces [ds] stand for the number [x] of
    the kind [k].  A whole number of a binary file is not negative and leaves the highest bit unset *)
Inductive denotes (c : codes) : ply_format -> kind -> R -> list datum -> Prop :=
| DN_text_int : forall b n, denotes c PText (KInt b) (IZR n) [DW (IZR n)]
| DN_text_single : forall x, denotes c PText KFloat x [DW x]
| DN_text_double : forall x, denotes c PText KDouble x [DW x]
| DN_little_int : forall b n, (0 <= n)%Z -> (2 * n < 256 ^ Z.of_nat b)%Z -> denotes c PLittle (KInt b) (IZR n) (map DB (low_first b n))
| DN_little_single : forall bs, length bs = 4%nat -> denotes c PLittle KFloat (four c bs) (map DB bs)
| DN_little_double : forall bs, length bs = 8%nat -> denotes c PLittle KDouble (eight c bs) (map DB bs)
| DN_big_int : forall b n, (0 <= n)%Z -> (2 * n < 256 ^ Z.of_nat b)%Z -> denotes c PBig (KInt b) (IZR n) (map DB (rev (low_first b n)))
| DN_big_single : forall bs, length bs = 4%nat -> denotes c PBig KFloat (four c bs) (map DB (rev bs))
| DN_big_double : forall bs, length bs = 8%nat -> denotes c PBig KDouble (eight c bs) (map DB (rev bs)).

(** a property is a number with a name, or a list of vertex numbers: type of the count, type of the numbers *)
Inductive property := Number (type name : string) | Indices (count_type type : string).
Inductive cell := CNumber (x : R) | CIndices (l : list nat).
Record element := Element { el_name : string; el_props : list property; el_rows : list (list cell) }.

(** a row of an element and the pieces that stand for it *)
Inductive row (c : codes) (f : ply_format) : list property -> list cell -> list datum -> Prop :=
| RW_nil : row c f [] [] []
| RW_number : forall t k n x ds ps cs more, kind_named t = Some k -> denotes c f k x ds -> row c f ps cs more ->
    row c f (Number t n :: ps) (CNumber x :: cs) (ds ++ more)
| RW_list : forall tn kn t k l dn dls ps cs more, kind_named tn = Some kn -> kind_named t = Some k ->
    denotes c f kn (IZR (Z.of_nat (length l))) dn -> Forall2 (fun i d => denotes c f k (IZR (Z.of_nat i)) d) l dls -> row c f ps cs more ->
    row c f (Indices tn t :: ps) (CIndices l :: cs) (dn ++ concat dls ++ more).
(** all rows of an element; all elements *)
Inductive rows (c : codes) (f : ply_format) (ps : list property) : list (list cell) -> list datum -> Prop :=
| RS_nil : rows c f ps [] []
| RS_cons : forall r rs d ds, row c f ps r d -> rows c f ps rs ds -> rows c f ps (r :: rs) (d ++ ds).
Inductive body (c : codes) (f : ply_format) : list element -> list datum -> Prop :=
| BD_nil : body c f [] []
| BD_cons : forall e es d ds, rows c f (el_props e) (el_rows e) d -> body c f es ds -> body c f (e :: es) (d ++ ds).

(** the header of a file of given elements; lines that begin with another word, comments, may be anywhere *)
Definition property_line (p : property) : list hword :=
  match p with
  | Number t n => [HW "property"; HW t; HW n]
  | Indices tn t => [HW "property"; HW "list"; HW tn; HW t; HW "vertex_indices"]
  end%string.
Definition element_lines (e : element) : list (list hword) :=
  [HW "element"; HW (el_name e); HI (Z.of_nat (length (el_rows e)))]%string :: map property_line (el_props e).
Definition keyword_line (l : list hword) : bool :=
  match l with HW w :: _ => (w =? "format") || (w =? "element") || (w =? "property") || (w =? "end_header") | _ => false end%string%bool.
Definition header (f : ply_format) (es : list element) (lines : list (list hword)) : Prop :=
  exists more, lines = [HW "ply"%string] :: more /\
  filter keyword_line more = [[HW "format"; HW (format_name f); HW "1.0"]]%string ++ flat_map element_lines es ++ [[HW "end_header"]]%string.

(** the value of a row under a name that only one property has *)
Definition only_place (ps : list property) (name : string) (j : nat) : Prop :=
  (exists t, nth_error ps j = Some (Number t name)) /\ forall i t, nth_error ps i = Some (Number t name) -> i = j.
Definition value (ps : list property) (r : list cell) (name : string) (x : R) : Prop :=
  exists j, only_place ps name j /\ nth_error r j = Some (CNumber x).
(** the vertices of an element *)
Definition positions (e : element) (vs : list vec3) : Prop :=
  Forall2 (fun r v => value (el_props e) r "x" (vx v) /\ value (el_props e) r "y" (vy v) /\ value (el_props e) r "z" (vz v)) (el_rows e) vs.
(** the polygons of an element, in order *)
Definition polygons_of_row (r : list cell) : list (list nat) := flat_map (fun c => match c with CIndices l => [l] | _ => [] end) r.
Definition polygons (e : element) : list (list nat) := flat_map polygons_of_row (el_rows e).
(** the triangle of a polygon of three corners; the fan of triangles that makes up a polygon *)
Definition fan (l : list nat) : list (nat * nat * nat) :=
  match l with
  | a :: r => (fix go r := match r with b :: ((c :: _) as r') => (a, b, c) :: go r' | _ => [] end) r
  | [] => []
  end.
(** triangles that all share the first side of a polygon *)
Definition on_first_side (l : list nat) : list (nat * nat * nat) := match l with a :: b :: r => map (fun c => (a, b, c)) r | _ => [] end.
(** a mesh: vertices, and faces given by vertex numbers with the normal of each *)
Definition faces_are (vs : list vec3) (fs : list ((nat * nat * nat) * vec3)) (ts : list (nat * nat * nat)) : Prop :=
  map fst fs = ts /\ Forall (fun f => exists t, triangle_of vs (fst f) t /\ normal_of t (snd f)) fs.

(** elements that are only read over; lists of the types [lt] only *)
Definition numbers_only (e : element) : Prop := forall p, List.In p (el_props e) -> exists t n, p = Number t n.
Definition lists_are (lt : string * string) (e : element) : Prop := forall tn t, List.In (Indices tn t) (el_props e) -> (tn, t) = lt.
(** less than twelve properties, of known types *)
Definition known (w : string) : Prop := exists k, kind_named w = Some k.
Definition in_limits (e : element) : Prop :=
  (length (el_props e) < 12)%nat /\
  forall p, List.In p (el_props e) -> match p with Number t _ => known t | Indices tn t => known tn /\ known t end.
(** a grid may have lists if the count has the same type as the numbers *)
Definition read_over (e : element) : Prop :=
  (el_name e = "edge"%string \/ el_name e = "material"%string) /\ numbers_only e \/
  el_name e = "range_grid"%string /\ forall tn t, List.In (Indices tn t) (el_props e) -> tn = t.

(** A document: the vertices [v], then perhaps the polygons of [g]; elements that are read over
    may be anywhere; all lists of the file are of the same types *)
Definition document (lt : string * string) (v : element) (g : option element) (es : list element) : Prop :=
  (length es <= 5)%nat /\ (forall e, List.In e es -> in_limits e /\ lists_are lt e) /\
  el_name v = "vertex"%string /\ numbers_only v /\
  exists pre mid, Forall read_over pre /\ Forall read_over mid /\
  match g with
  | Some g => el_name g = "face"%string /\ exists post, Forall read_over post /\ es = pre ++ v :: mid ++ g :: post
  | None => es = pre ++ v :: mid
  end.
Definition polygons_opt (g : option element) : list (list nat) := match g with Some g => polygons g | None => [] end.
Definition all_below (n : nat) (ls : list (list nat)) : Prop := forall l i, List.In l ls -> List.In i l -> (i < n)%nat.
(** no property has the name *)
Definition lacks (ps : list property) (name : string) : Prop := forall i t, nth_error ps i <> Some (Number t name).
(** the value under a name, or that of the first property if there is no such name *)
Definition value_or_first (ps : list property) (r : list cell) (name : string) (x : R) : Prop :=
  value ps r name x \/ lacks ps name /\ nth_error r 0 = Some (CNumber x).
Definition positions_or_first (e : element) (vs : list vec3) : Prop :=
  Forall2 (fun r v => value_or_first (el_props e) r "x" (vx v) /\ value_or_first (el_props e) r "y" (vy v) /\ value_or_first (el_props e) r "z" (vz v)) (el_rows e) vs.
Definition known_name (w : string) : Prop := List.In w ["vertex"; "face"; "edge"; "material"; "range_grid"]%string.

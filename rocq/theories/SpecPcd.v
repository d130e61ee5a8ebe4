(** Vocabulary for PCD files (point clouds): columns with names and types, rows of values, and
    the place from which the points were seen. *)
From Coq Require Export Ascii String List ZArith.
Export ListNotations.
From Verif Require Export SpecPly SpecObj.
Open Scope R_scope.

(** a word of a text and the number it denotes; [None] for "nan" and "inf" *)
Record pword := PW { w_text : string; w_val : option R }.
Inductive pline := PComment | PWords (ws : list pword).
(** signed and unsigned whole numbers, real numbers; size in bytes *)
Inductive ctype := CInt | CNat | CReal.
Record column := Column { c_name : string; c_type : ctype; c_size : nat }.
Definition type_letter (t : ctype) : string := match t with CInt => "I" | CNat => "U" | CReal => "F" end%string.
Definition admissible (c : column) : Prop :=
  List.In (c_size c) [1; 2; 4; 8]%nat /\ (c_type c = CReal -> c_size c = 4%nat \/ c_size c = 8%nat).
Definition coordinate_name (s : string) : Prop := List.In s ["x"; "y"; "z"]%string.

(** ** Header *)
Definition word_is (w : pword) (s : string) : Prop := w_text w = s.
Definition word_num (w : pword) (n : Z) : Prop := numeral (w_text w) n.
Definition line_of (key : string) (args : list pword -> Prop) (l : pline) : Prop :=
  exists k ws, l = PWords (k :: ws) /\ word_is k key /\ args ws.
Definition optional (P : pline -> Prop) (ls : list pline) : Prop := ls = [] \/ exists l, ls = [l] /\ P l.
Fixpoint has_point (s : string) : Prop := match s with EmptyString => False | String c r => c = "."%char \/ has_point r end.
Inductive data_format := DText | DBinary | DCompressed.
Definition data_name (f : data_format) : string := match f with DText => "ascii" | DBinary => "binary" | DCompressed => "binary_compressed" end%string.
Definition not_comment (l : pline) : bool := match l with PComment => false | _ => true end.
(** the lines of a header: columns [cols], [w] times [h] points seen from [p] with the attitude [q] *)
Definition pcd_header (cols : list column) (w h : nat) (p : vec3) (q : quat) (f : data_format) (ls : list pline) : Prop :=
  exists ver fields sizes types cnt width height view pts dat,
    filter not_comment ls = ver ++ [fields; sizes; types] ++ cnt ++ [width; height] ++ view ++ pts ++ [dat] /\
    optional (line_of "VERSION" (fun ws => exists w, List.In w ws /\ has_point (w_text w))) ver /\
    line_of "FIELDS" (fun ws => Forall2 (fun w c => word_is w (c_name c)) ws cols) fields /\
    line_of "SIZE" (fun ws => Forall2 (fun w c => word_num w (Z.of_nat (c_size c))) ws cols) sizes /\
    line_of "TYPE" (fun ws => Forall2 (fun w c => word_is w (type_letter (c_type c))) ws cols) types /\
    optional (line_of "COUNT" (fun ws => Forall2 (fun w (c : column) => word_num w 1) ws cols)) cnt /\
    line_of "WIDTH" (fun ws => exists n, ws = [n] /\ word_num n (Z.of_nat w)) width /\
    line_of "HEIGHT" (fun ws => exists n, ws = [n] /\ word_num n (Z.of_nat h)) height /\
    ((view = [] /\ p = V3 0 0 0 /\ q = Q4 1 0 0 0) \/
     exists l, view = [l] /\ line_of "VIEWPOINT" (fun ws => map w_val ws = map Some [vx p; vy p; vz p; qw q; qx q; qy q; qz q]) l) /\
    optional (line_of "POINTS" (fun ws => exists n, ws = [n] /\ word_num n (Z.of_nat (w * h)))) pts /\
    line_of "DATA" (fun ws => exists n, ws = [n] /\ word_is n (data_name f)) dat.

(** ** Values *)
Definition fits (t : ctype) (size : nat) (z : Z) : Prop :=
  match t with
  | CInt => (- 2 ^ (8 * Z.of_nat size - 1) <= z < 2 ^ (8 * Z.of_nat size - 1))%Z
  | CNat => (0 <= z < 2 ^ (8 * Z.of_nat size))%Z
  | CReal => False
  end.
(** a value of a column as a word; [sgl] is what single precision leaves of a number *)
Inductive cell_text (sgl : R -> R) (c : column) (w : pword) : option R -> Prop :=
| CT_whole : forall z, numeral (w_text w) z -> fits (c_type c) (c_size c) z -> cell_text sgl c w (Some (IZR z))
| CT_single : c_type c = CReal -> c_size c = 4%nat -> cell_text sgl c w (option_map sgl (w_val w))
| CT_double : c_type c = CReal -> c_size c = 8%nat -> cell_text sgl c w (w_val w).
(** a row of text: cells that are missing are zero, words that are too many do not count *)
Inductive text_row (sgl : R -> R) : list column -> list pword -> list (option R) -> Prop :=
| TR_end : forall cols, text_row sgl cols [] (map (fun _ => Some 0) cols)
| TR_over : forall ws, text_row sgl [] ws []
| TR_cell : forall c cols w ws x xs, (coordinate_name (c_name c) -> cell_text sgl c w x) -> text_row sgl cols ws xs -> text_row sgl (c :: cols) (w :: ws) (x :: xs).
(** what four and eight bytes denote, [None] being no number, and the bytes of a number *)
Record pcodes := PCodes { single4 : list Z -> option R; double8 : list Z -> option R; bytes_of : R -> list Z }.
(** a number of double precision: it is kept by eight bytes *)
Definition kept (cd : pcodes) (x : R) : Prop := length (bytes_of cd x) = 8%nat /\ double8 cd (bytes_of cd x) = Some x.
Definition kept3 (cd : pcodes) (v : vec3) : Prop := kept cd (vx v) /\ kept cd (vy v) /\ kept cd (vz v).
Inductive cell_bytes (cd : pcodes) (c : column) : list Z -> option R -> Prop :=
| CB_whole : forall z, fits (c_type c) (c_size c) z -> cell_bytes cd c (low_first (c_size c) (z mod 2 ^ (8 * Z.of_nat (c_size c)))%Z) (Some (IZR z))
| CB_single : forall bs, c_type c = CReal -> c_size c = 4%nat -> length bs = 4%nat -> cell_bytes cd c bs (single4 cd bs)
| CB_double : forall bs, c_type c = CReal -> c_size c = 8%nat -> length bs = 8%nat -> cell_bytes cd c bs (double8 cd bs).
Inductive byte_row (cd : pcodes) : list column -> list Z -> list (option R) -> Prop :=
| BR_nil : byte_row cd [] [] []
| BR_cell : forall c cols bs more x xs, cell_bytes cd c bs x -> byte_row cd cols more xs -> byte_row cd (c :: cols) (bs ++ more) (x :: xs).

(** ** Points *)
(** the value in the column of that name; zero without such a column *)
Fixpoint look (s : string) (cols : list column) (xs : list (option R)) : option R :=
  match cols, xs with
  | c :: cols, x :: xs => if String.eqb (c_name c) s then x else look s cols xs
  | _, _ => Some 0
  end.
Definition row_point (cols : list column) (xs : list (option R)) : option vec3 :=
  match look "x" cols xs, look "y" cols xs, look "z" cols xs with Some x, Some y, Some z => Some (V3 x y z) | _, _, _ => None end.
(** [v] relative to a place and an attitude given by a quaternion of any length *)
Definition seen (p : vec3) (q : quat) (v : vec3) : vec3 :=
  vadd p (vscale (/ qnorm2 q) (qvec (qmul (qmul q (Q4 0 (vx v) (vy v) (vz v))) (qconj q)))).
Definition cloud (cols : list column) (p : vec3) (q : quat) (rows : list (list (option R))) : list vec3 :=
  flat_map (fun xs => match row_point cols xs with Some v => [seen p q v] | None => [] end) rows.

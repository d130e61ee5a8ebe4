(** Model of PLY files: src/zeo_ph3d_ply.c.
    A file is the list of the lines of its header, up to the first line that begins with
    end_header or else up to the end of the file, each as the list of its words, and what
    follows as a list of pieces: numbers (text) or bytes (binary).  The division into lines and
    words (fgets, zSToken, zSInt, zFInt, zFDouble) is not modelled: every line ends with a
    newline, fits into the buffer and does not begin with a space; a word that begins with a
    keyword and is longer is taken as another word.  Words other than numbers after the header,
    numbers that are not whole where a whole number is to be read from a text, and reading
    behind the end are not modelled and taken as undefined.  The host is little-endian; byte,
    word and dword are unsigned.  Memory allocation succeeds; messages and the file that stays
    open on failure are left out.  An outer [None] is undefined behaviour, an inner one the
    null return. *)
From Coq Require Export Ascii String List ZArith.
From Verif Require Export Base SpecPly ModelVec ModelElem ModelPH ModelTree ModelStl.
Import ListNotations.
Open Scope R_scope.

(** 68-92 *)
Inductive zPLYDATA := ZCHAR | ZUCHAR | ZSHORT | ZUSHORT | ZINT | ZUINT | ZFLOAT | ZDOUBLE | ZLIST.
(** 154-157; the value none is the lack of a format line *)
Inductive zPLYFormat := ZASCII | ZBIN | ZBIN_REV.
(** 101-109 *)
Inductive zPLYElemType := ZVERTEX | ZFACE | ZEDGE | ZMATERIAL | ZRANGE_GRID.
(** 123-138; a property is a pointer into prp_ref, given by its type *)
Record zPLYElement := PE { pe_type : zPLYElemType; pe_num : Z; pe_prp : list zPLYDATA }.
(** 159-168; version is not used.  facelistnum and facelistelem are not initialised, or null if
    the name of a type is unknown: both as [None] *)
Record zPLY := PLY { p_format : option zPLYFormat; p_elem : list zPLYElement; p_x : nat; p_y : nat; p_z : nat; p_listnum : option zPLYDATA; p_listelem : option zPLYDATA }.
(** 170-180 *)
Definition zPLYInit : zPLY := PLY None [] 0 0 0 None None.

(** (int) of a double *)
Definition truncZ (x : R) : Z := if Rle_dec 0 x then Int_part x else (- Int_part (- x))%Z.
(** a whole number of a text *)
Definition wholeZ (x : R) : option Z := if Req_EM_T (IZR (Int_part x)) x then Some (Int_part x) else None.
(** the value of bytes given lowest first *)
Fixpoint unsignedZ (bs : list Z) : Z := match bs with [] => 0%Z | b :: r => (b + 256 * unsignedZ r)%Z end.
(** the next [n] bytes *)
Fixpoint takeBytes (n : nat) (s : list datum) : option (list Z * list datum) :=
  match n with
  | O => Some ([], s)
  | Datatypes.S n => match s with DB b :: r => match takeBytes n r with Some (bs, r) => Some (b :: bs, r) | None => None end | _ => None end
  end.
Definition zPLYSize (t : zPLYDATA) : nat :=
  match t with ZCHAR | ZUCHAR => 1 | ZSHORT | ZUSHORT => 2 | ZINT | ZUINT | ZFLOAT => 4 | ZDOUBLE => 8 | ZLIST => 0 end.
(** bytes in the order of the host *)
Definition hostBytes (f : zPLYFormat) (bs : list Z) : list Z := match f with ZBIN_REV => rev bs | _ => bs end.
(** 13-55, 182-239: read_double; [None] for the null pointer of lists *)
Definition read_double (c : codes) (f : zPLYFormat) (t : zPLYDATA) (s : list datum) : option (R * list datum) :=
  match t with
  | ZLIST => None
  | _ =>
      match f with
      | ZASCII =>
          match s with
          | DW x :: r =>
              match t with
              | ZFLOAT | ZDOUBLE => Some (x, r)
              | _ => match wholeZ x with Some n => Some (IZR n, r) | None => None end
              end
          | _ => None
          end
      | _ =>
          match takeBytes (zPLYSize t) s with
          | Some (bs, r) =>
              match t with
              | ZFLOAT => Some (four c (hostBytes f bs), r)
              | ZDOUBLE => Some (eight c (hostBytes f bs), r)
              | _ => Some (IZR (unsignedZ (hostBytes f bs)), r)
              end
          | None => None
          end
      end
  end.
(** 30-66, 182-239: read_int *)
Definition read_int (c : codes) (f : zPLYFormat) (t : zPLYDATA) (s : list datum) : option (Z * list datum) :=
  match t with
  | ZLIST => None
  | _ =>
      match f with
      | ZASCII =>
          match s with
          | DW x :: r =>
              match t with
              | ZFLOAT | ZDOUBLE => Some (truncZ x, r)
              | _ => match wholeZ x with Some n => Some (n, r) | None => None end
              end
          | _ => None
          end
      | _ =>
          match takeBytes (zPLYSize t) s with
          | Some (bs, r) =>
              match t with
              | ZFLOAT => Some (truncZ (four c (hostBytes f bs)), r)
              | ZDOUBLE => Some (truncZ (eight c (hostBytes f bs)), r)
              | _ => Some (int_of_u32 (unsignedZ (hostBytes f bs)), r)
              end
          | None => None
          end
      end
  end.

(** ** header *)

Definition hword_is (h : hword) (w : string) : bool := match h with HW u => String.eqb u w | HI _ => false end.
(** 241-249 *)
Definition zPLYPrpFind (h : hword) : option zPLYDATA :=
  if hword_is h "char" then Some ZCHAR else if hword_is h "uchar" then Some ZUCHAR
  else if hword_is h "short" then Some ZSHORT else if hword_is h "ushort" then Some ZUSHORT
  else if hword_is h "int" then Some ZINT else if hword_is h "uint" then Some ZUINT
  else if hword_is h "float" then Some ZFLOAT else if hword_is h "double" then Some ZDOUBLE
  else if hword_is h "list" then Some ZLIST else None.
(** zSToken: the next word, empty if there is none *)
Definition nextWord (l : list hword) : hword * list hword := match l with h :: r => (h, r) | [] => (HW "", []) end.
(** 288-308 *)
Definition zPLYFReadFormat (p : zPLY) (l : list hword) : option zPLY :=
  let '(t, l) := nextWord l in
  match (if hword_is t "ascii" then Some ZASCII else if hword_is t "binary_big_endian" then Some ZBIN_REV
         else if hword_is t "binary_little_endian" then Some ZBIN else None) with
  | Some f => match l with _ :: _ => Some (PLY (Some f) (p_elem p) (p_x p) (p_y p) (p_z p) (p_listnum p) (p_listelem p)) | [] => None end
  | None => None
  end.
(** 111-118, 320-331 *)
Definition elemTypeFind (h : hword) : option zPLYElemType :=
  if hword_is h "vertex" then Some ZVERTEX else if hword_is h "face" then Some ZFACE else if hword_is h "edge" then Some ZEDGE
  else if hword_is h "material" then Some ZMATERIAL else if hword_is h "range_grid" then Some ZRANGE_GRID else None.
(** 310-335: [None] for a number of rows that is not a number *)
Definition zPLYFReadElement (p : zPLY) (l : list hword) : option (option zPLY) :=
  if Nat.leb 5 (length (p_elem p)) then Some None
  else let '(t, l) := nextWord l in
       match elemTypeFind t with
       | None => Some None
       | Some et =>
           match l with
           | HI n :: _ => Some (Some (PLY (p_format p) (p_elem p ++ [PE et n []]) (p_x p) (p_y p) (p_z p) (p_listnum p) (p_listelem p)))
           | HW _ :: _ => None
           | [] => Some None
           end
       end.
Fixpoint lastElem (l : list zPLYElement) : option (list zPLYElement * zPLYElement) :=
  match l with
  | [] => None
  | [e] => Some ([], e)
  | e :: r => match lastElem r with Some (i, z) => Some (e :: i, z) | None => None end
  end.
(** 337-376: [None] if there is no element yet (index -1), or no format yet (prp_ref is not initialised) *)
Definition zPLYFReadProperty (p : zPLY) (l : list hword) : option (option zPLY) :=
  match lastElem (p_elem p), p_format p with
  | Some (es, e), Some _ =>
      let '(t, l) := nextWord l in
      match zPLYPrpFind t with
      | None => Some None
      | Some d =>
          let n := length (pe_prp e) in
          let es' := es ++ [PE (pe_type e) (pe_num e) (pe_prp e ++ [d])] in
          let done q := if Nat.leb 12 (Datatypes.S n) then Some None else Some (Some q) in
          match d with
          | ZLIST =>
              let '(t1, l) := nextWord l in
              let '(t2, l) := nextWord l in
              let '(t3, _) := nextWord l in
              if hword_is t3 "vertex_indices" then done (PLY (p_format p) es' (p_x p) (p_y p) (p_z p) (zPLYPrpFind t1) (zPLYPrpFind t2))
              else Some None
          | _ =>
              let '(w, _) := nextWord l in
              match pe_type e with
              | ZVERTEX =>
                  if hword_is w "x" then done (PLY (p_format p) es' n (p_y p) (p_z p) (p_listnum p) (p_listelem p))
                  else if hword_is w "y" then done (PLY (p_format p) es' (p_x p) n (p_z p) (p_listnum p) (p_listelem p))
                  else if hword_is w "z" then done (PLY (p_format p) es' (p_x p) (p_y p) n (p_listnum p) (p_listelem p))
                  else done (PLY (p_format p) es' (p_x p) (p_y p) (p_z p) (p_listnum p) (p_listelem p))
              | _ => done (PLY (p_format p) es' (p_x p) (p_y p) (p_z p) (p_listnum p) (p_listelem p))
              end
          end
      end
  | _, _ => None
  end.
(** 378-404 *)
Fixpoint zPLYFReadHeader (lines : list (list hword)) (p : zPLY) : option (option zPLY) :=
  match lines with
  | [] => Some None
  | l :: more =>
      let '(t, r) := nextWord l in
      if hword_is t "end_header" then Some (Some p)
      else if hword_is t "format" then match zPLYFReadFormat p r with Some p => zPLYFReadHeader more p | None => Some None end
      else if hword_is t "element" then match zPLYFReadElement p r with Some (Some p) => zPLYFReadHeader more p | q => q end
      else if hword_is t "property" then match zPLYFReadProperty p r with Some (Some p) => zPLYFReadHeader more p | q => q end
      else zPLYFReadHeader more p
  end.

(** ** what follows the header *)

(** 406-411 *)
Definition zPH3DSetPLYVert (p : zPLY) (v : vec3) (j : nat) (val : R) : vec3 :=
  V3 (if Nat.eqb j (p_x p) then val else vx v) (if Nat.eqb j (p_y p) then val else vy v) (if Nat.eqb j (p_z p) then val else vz v).
(** 422-429: one vertex; the inner [None] is failure *)
Fixpoint readVertRow (c : codes) (f : zPLYFormat) (p : zPLY) (prp : list zPLYDATA) (j : nat) (v : vec3) (s : list datum) : option (option (vec3 * list datum)) :=
  match prp with
  | [] => Some (Some (v, s))
  | ZLIST :: _ => Some None
  | t :: prp =>
      match read_double c f t s with
      | Some (val, s) => readVertRow c f p prp (Datatypes.S j) (zPH3DSetPLYVert p v j val) s
      | None => None
      end
  end.
(** 421-431; [junk] is the content of memory that has just been allocated *)
Fixpoint readVertRows (n : nat) (c : codes) (f : zPLYFormat) (p : zPLY) (prp : list zPLYDATA) (junk : vec3) (s : list datum) : option (option (list vec3 * list datum)) :=
  match n with
  | O => Some (Some ([], s))
  | Datatypes.S n =>
      match readVertRow c f p prp 0 junk s with
      | Some (Some (v, s)) =>
          match readVertRows n c f p prp junk s with Some (Some (vs, s)) => Some (Some (v :: vs, s)) | q => q end
      | Some None => Some None
      | None => None
      end
  end.
(** 413-434: a second set of vertices when there are faces already is not modelled.  Without
    rows the vertices stay as they are *)
Definition zPH3DFReadPLYVert (c : codes) (f : zPLYFormat) (p : zPLY) (e : zPLYElement) (junk : vec3) (ph : ph3) (s : list datum) : option (option (ph3 * list datum)) :=
  if Z.leb (pe_num e) 0 then Some (Some (ph, s))
  else match pfaces ph with
       | _ :: _ => None
       | [] =>
           match readVertRows (Z.to_nat (pe_num e)) c f p (pe_prp e) junk s with
           | Some (Some (vs, s)) => Some (Some (PH vs [], s))
           | Some None => Some None
           | None => None
           end
       end.
(** the entries of a list, read over *)
Fixpoint skipInts (k : nat) (c : codes) (f : zPLYFormat) (t : zPLYDATA) (s : list datum) : option (list datum) :=
  match k with O => Some s | Datatypes.S k => match read_int c f t s with Some (_, s) => skipInts k c f t s | None => None end end.
(** 446-454: the first pass, one row: the number of faces and the rest *)
Fixpoint countRow (c : codes) (f : zPLYFormat) (p : zPLY) (prp : list zPLYDATA) (s : list datum) (nf : Z) : option (Z * list datum) :=
  match prp with
  | [] => Some (nf, s)
  | ZLIST :: prp =>
      match p_listnum p, p_listelem p with
      | Some tn, Some te =>
          match read_int c f tn s with
          | Some (nv, s) =>
              match skipInts (Z.to_nat nv) c f te s with
              | Some s => countRow c f p prp s (nf + Z.max (nv - 2) 0)%Z
              | None => None
              end
          | None => None
          end
      | _, _ => None
      end
  | t :: prp => match read_double c f t s with Some (_, s) => countRow c f p prp s nf | None => None end
  end.
(** 445-455 *)
Fixpoint countRows (n : nat) (c : codes) (f : zPLYFormat) (p : zPLY) (prp : list zPLYDATA) (s : list datum) (nf : Z) : option (Z * list datum) :=
  match n with
  | O => Some (nf, s)
  | Datatypes.S n => match countRow c f p prp s nf with Some (nf, s) => countRows n c f p prp s nf | None => None end
  end.
(** zTri3DCreate on three vertices given by their numbers; [None] for a number of no vertex *)
Definition makeFace (vs : list vec3) (a b d : Z) : option face :=
  if (Z.ltb a 0 || Z.ltb b 0 || Z.ltb d 0)%bool then None
  else match nth_error vs (Z.to_nat a), nth_error vs (Z.to_nat b), nth_error vs (Z.to_nat d) with
       | Some p0, Some p1, Some p2 => Some (FC (Z.to_nat a) (Z.to_nat b) (Z.to_nat d) (tnorm (snd (zTri3DCreate p0 p1 p2))))
       | _, _, _ => None
       end.
(** 473-476: [nf] is the number of faces allocated, [fs] are those made so far *)
Fixpoint makeFaces (k : nat) (c : codes) (f : zPLYFormat) (te : zPLYDATA) (vs : list vec3) (v1 v2 : Z) (s : list datum) (nf : Z) (fs : list face) : option (list face * list datum) :=
  match k with
  | O => Some (fs, s)
  | Datatypes.S k =>
      match read_int c f te s with
      | Some (v3, s) =>
          match makeFace vs v1 v2 v3 with
          | Some fc => if Z.ltb (Z.of_nat (length fs)) nf then makeFaces k c f te vs v1 v2 s nf (fs ++ [fc]) else None
          | None => None
          end
      | None => None
      end
  end.
(** 463-477: the second pass, one row *)
Fixpoint faceRow (c : codes) (f : zPLYFormat) (p : zPLY) (prp : list zPLYDATA) (vs : list vec3) (s : list datum) (nf : Z) (fs : list face) : option (list face * list datum) :=
  match prp with
  | [] => Some (fs, s)
  | ZLIST :: prp =>
      match p_listnum p, p_listelem p with
      | Some tn, Some te =>
          match read_int c f tn s with
          | Some (nv, s) =>
              if Z.ltb (nv - 1) 0 then faceRow c f p prp vs s nf fs
              else match read_int c f te s with
                   | Some (v1, s) =>
                       if Z.ltb (nv - 2) 0 then faceRow c f p prp vs s nf fs
                       else match read_int c f te s with
                            | Some (v2, s) =>
                                match makeFaces (Z.to_nat (nv - 2)) c f te vs v1 v2 s nf fs with
                                | Some (fs, s) => faceRow c f p prp vs s nf fs
                                | None => None
                                end
                            | None => None
                            end
                   | None => None
                   end
          | None => None
          end
      | _, _ => None
      end
  | t :: prp => match read_double c f t s with Some (_, s) => faceRow c f p prp vs s nf fs | None => None end
  end.
(** 462-479 *)
Fixpoint faceRows (n : nat) (c : codes) (f : zPLYFormat) (p : zPLY) (prp : list zPLYDATA) (vs : list vec3) (s : list datum) (nf : Z) (fs : list face) : option (list face * list datum) :=
  match n with
  | O => Some (fs, s)
  | Datatypes.S n => match faceRow c f p prp vs s nf fs with Some (fs, s) => faceRows n c f p prp vs s nf fs | None => None end
  end.
(** 436-482: if no face is counted those of before stay *)
Definition zPH3DFReadPLYFace (c : codes) (f : zPLYFormat) (p : zPLY) (e : zPLYElement) (ph : ph3) (s : list datum) : option (option (ph3 * list datum)) :=
  match countRows (Z.to_nat (pe_num e)) c f p (pe_prp e) s 0 with
  | Some (nf, _) =>
      match faceRows (Z.to_nat (pe_num e)) c f p (pe_prp e) (pverts ph) s nf [] with
      | Some (fs, s) => Some (Some (PH (pverts ph) (if Z.ltb 0 nf then fs else pfaces ph), s))
      | None => None
      end
  | None => None
  end.
(** 490-498: one row; the entries are read over by the type of the count *)
Fixpoint gridRow (c : codes) (f : zPLYFormat) (p : zPLY) (prp : list zPLYDATA) (s : list datum) : option (list datum) :=
  match prp with
  | [] => Some s
  | ZLIST :: prp =>
      match p_listnum p with
      | Some tn =>
          match read_int c f tn s with
          | Some (ni, s) => match skipInts (Z.to_nat ni) c f tn s with Some s => gridRow c f p prp s | None => None end
          | None => None
          end
      | None => None
      end
  | t :: prp => match read_double c f t s with Some (_, s) => gridRow c f p prp s | None => None end
  end.
(** 484-501 *)
Fixpoint zPH3DFReadPLYRangeGrid (n : nat) (c : codes) (f : zPLYFormat) (p : zPLY) (prp : list zPLYDATA) (s : list datum) : option (list datum) :=
  match n with
  | O => Some s
  | Datatypes.S n => match gridRow c f p prp s with Some s => zPH3DFReadPLYRangeGrid n c f p prp s | None => None end
  end.
(** 509-514: one row *)
Fixpoint elemRow (c : codes) (f : zPLYFormat) (prp : list zPLYDATA) (s : list datum) : option (option (list datum)) :=
  match prp with
  | [] => Some (Some s)
  | ZLIST :: _ => Some None
  | t :: prp => match read_double c f t s with Some (_, s) => elemRow c f prp s | None => None end
  end.
(** 503-517 *)
Fixpoint zPH3DFReadPLYElem (n : nat) (c : codes) (f : zPLYFormat) (prp : list zPLYDATA) (s : list datum) : option (option (list datum)) :=
  match n with
  | O => Some (Some s)
  | Datatypes.S n => match elemRow c f prp s with Some (Some s) => zPH3DFReadPLYElem n c f prp s | q => q end
  end.
(** 519-539 *)
Fixpoint zPH3DFReadPLYData (c : codes) (f : zPLYFormat) (p : zPLY) (es : list zPLYElement) (junk : vec3) (ph : ph3) (s : list datum) : option (option ph3) :=
  match es with
  | [] => Some (Some ph)
  | e :: es =>
      match pe_type e with
      | ZVERTEX => match zPH3DFReadPLYVert c f p e junk ph s with Some (Some (ph, s)) => zPH3DFReadPLYData c f p es junk ph s | Some None => Some None | None => None end
      | ZFACE => match zPH3DFReadPLYFace c f p e ph s with Some (Some (ph, s)) => zPH3DFReadPLYData c f p es junk ph s | Some None => Some None | None => None end
      | ZRANGE_GRID => match zPH3DFReadPLYRangeGrid (Z.to_nat (pe_num e)) c f p (pe_prp e) s with Some s => zPH3DFReadPLYData c f p es junk ph s | None => None end
      | _ => match zPH3DFReadPLYElem (Z.to_nat (pe_num e)) c f (pe_prp e) s with Some (Some s) => zPH3DFReadPLYData c f p es junk ph s | Some None => Some None | None => None end
      end
  end.
(** 273-286, 541-573.  Without a format line no property can have been read; the format does not
    matter then *)
Definition zPH3DReadFilePLY (c : codes) (junk : vec3) (lines : list (list hword)) (s : list datum) : option (option ph3) :=
  match lines with
  | (HW w :: _) :: more =>
      if String.prefix "ply" w then
        match zPLYFReadHeader more zPLYInit with
        | Some (Some p) => zPH3DFReadPLYData c (match p_format p with Some f => f | None => ZASCII end) p (p_elem p) junk (PH [] []) s
        | Some None => Some None
        | None => None
        end
      else Some None
  | _ => Some None
  end.

(** ** writing *)

(** 575-586 *)
Definition zPH3DFWritePLYHeader (ph : ph3) (format : string) : list (list hword) :=
  [[HW "ply"]; [HW "format"; HW format; HW "1.0"]; [HW "element"; HW "vertex"; HI (Z.of_nat (length (pverts ph)))];
   [HW "property"; HW "float"; HW "x"]; [HW "property"; HW "float"; HW "y"]; [HW "property"; HW "float"; HW "z"];
   [HW "element"; HW "face"; HI (Z.of_nat (length (pfaces ph)))];
   [HW "property"; HW "list"; HW "uchar"; HW "int"; HW "vertex_indices"]; [HW "end_header"]]%string.
(** 588-599: numbers are written with ten digits, [pr] *)
Definition zPH3DFWritePLYDataASCII (pr : R -> R) (ph : ph3) : list datum :=
  flat_map (fun v => [DW (pr (vx v)); DW (pr (vy v)); DW (pr (vz v))]) (pverts ph)
  ++ flat_map (fun f => [DW 3; DW (INR (fi0 f)); DW (INR (fi1 f)); DW (INR (fi2 f))]) (pfaces ph).
(** 601-616: [enc] is the code of single precision *)
Definition zPH3DFWritePLYDataBin (enc : R -> list Z) (ph : ph3) : list datum :=
  map DB (flat_map (fun v => enc (vx v) ++ enc (vy v) ++ enc (vz v)) (pverts ph)
          ++ flat_map (fun f => [3%Z] ++ le32 (Z.of_nat (fi0 f)) ++ le32 (Z.of_nat (fi1 f)) ++ le32 (Z.of_nat (fi2 f))) (pfaces ph)).
(** 618-630 *)
Definition zPH3DWriteFilePLY_ASCII (pr : R -> R) (ph : ph3) : list (list hword) * list datum :=
  (zPH3DFWritePLYHeader ph "ascii", zPH3DFWritePLYDataASCII pr ph).
(** 633-652 *)
Definition zPH3DWriteFilePLY_Bin (enc : R -> list Z) (ph : ph3) : list (list hword) * list datum :=
  (zPH3DFWritePLYHeader ph "binary_little_endian", zPH3DFWritePLYDataBin enc ph).

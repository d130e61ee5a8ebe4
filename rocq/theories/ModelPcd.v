(** Model of PCD files: src/zeo_vec3d_pcd.c.
    A file is the lines of its header, followed by what remains as lines of words or as bytes.
    The division into lines and words (fgets, zSToken of ZEDA, to which commas are blanks too) and
    atof are not modelled: a word carries the number that atof makes of it.  atoi is that of
    ModelObj.  The host is little-endian.  Memory allocation succeeds, zAlloc of no element gives
    a null pointer; messages are left out.  Numbers that are not finite are [None]; a viewpoint
    with such a number is outside of the model ([PUndef]).  [rnd] is the conversion of a double to
    a float and back; [lzf] is lzf_decompress of liblzf. *)
From Coq Require Export Ascii String List ZArith.
From Verif Require Export Base SpecPcd ModelVec ModelFrame ModelEP ModelData ModelPly ModelObj.
Import ListNotations.
Open Scope list_scope.
Open Scope R_scope.

(** 14-20 *)
Inductive zPCDDataType := PASCII | PBINARY | PBINCOM.
(** 26-53: fieldtype is the index of a coordinate or [None] (unknown), valuetype is [None] if invalid *)
Record zPCDField := PFld { pf_type : option nat; pf_size : Z; pf_bits : nat; pf_val : option nat }.
(** 72-85, 115-128, 146-159, 188-201: the tables of the types int8_t, int16_t, ..., double; [None] is outside of the
    table, [Some None] the null pointer *)
Inductive vtp := TI (bytes : nat) | TU (bytes : nat) | TF32 | TF64.
Definition pcdTable (v : option nat) (bits : nat) : option (option vtp) :=
  match v with
  | None => None
  | Some v => nth_error [Some (TI 1); Some (TI 2); Some (TI 4); Some (TI 8); Some (TU 1); Some (TU 2); Some (TU 4); Some (TU 8); None; None; Some TF32; Some TF64] (v * 4 + bits)
  end.
Definition wrapU (b : nat) (z : Z) : Z := (z mod 2 ^ (8 * Z.of_nat b))%Z.
Definition wrapS (b : nat) (z : Z) : Z := let m := wrapU b z in if Z.ltb m (2 ^ (8 * Z.of_nat b - 1)) then m else (m - 2 ^ (8 * Z.of_nat b))%Z.
(** 55-70 *)
Definition asciiVal (rnd : R -> R) (t : vtp) (w : pword) : option R :=
  match t with
  | TI b => Some (IZR (wrapS b (atoi (w_text w))))
  | TU b => Some (IZR (wrapU b (atoi (w_text w))))
  | TF32 => option_map rnd (w_val w)
  | TF64 => w_val w
  end.
Definition vtpSize (t : vtp) : nat := match t with TI b => b | TU b => b | TF32 => 4 | TF64 => 8 end.
(** 98-113, 168-186 *)
Definition binVal (cd : pcodes) (t : vtp) (bs : list Z) : option R :=
  match t with
  | TI b => Some (IZR (wrapS b (unsignedZ bs)))
  | TU b => Some (IZR (wrapU b (unsignedZ bs)))
  | TF32 => single4 cd bs
  | TF64 => double8 cd bs
  end.
(** a vector while it is filled, and v->e[k] = x *)
Definition ovec := (option R * option R * option R)%type.
Definition putCoord (k : nat) (x : option R) (v : ovec) : ovec :=
  let '(a, b, c) := v in match k with 0%nat => (x, b, c) | 1%nat => (a, x, c) | _ => (a, b, x) end.
Definition ozero : ovec := (Some 0, Some 0, Some 0).
(** src/zeo_vec3d.c 65-70 *)
Definition finite (v : ovec) : option vec3 := match v with (Some a, Some b, Some c) => Some (V3 a b c) | _ => None end.

(** 209-218, 220-239 *)
Record zPCD := PCD { c_field : list zPCDField; c_width : Z; c_height : Z; c_view : frame3; c_datatype : option zPCDDataType }.
Definition zPCDInit : zPCD := PCD [] 0 0 (F3 (V3 0 0 0) ZMAT3DIDENT) None.
(** 241-248 *)
Fixpoint attrFind (t : string) (l : list string) : option nat :=
  match l with [] => None | a :: r => if String.eqb t a then Some 0%nat else match attrFind t r with Some i => Some (Datatypes.S i) | None => None end end.

(** results of a reader of one line *)
Inductive pset := SOk (p : zPCD) | SFail | SUndef.
(** 250-266: the version is not used; a point is asked for *)
Fixpoint hasDot (s : string) : bool := match s with EmptyString => false | String c r => if Ascii.eqb c "." then true else hasDot r end.
Definition readVersion (p : zPCD) (ws : list pword) : pset := if existsb (fun w => hasDot (w_text w)) ws then SOk p else SFail.
(** 268-287 *)
Definition readFields (p : zPCD) (ws : list pword) : pset :=
  match ws with
  | [] => SFail
  | _ => SOk (PCD (map (fun w => PFld (attrFind (w_text w) ["x"; "y"; "z"]%string) 0 0 None) ws) (c_width p) (c_height p) (c_view p) (c_datatype p))
  end.
(** 289-294: loops over words and fields; too few words are refused *)
Fixpoint overFields (g : zPCDField -> pword -> option zPCDField) (fs : list zPCDField) (ws : list pword) : option (list zPCDField) :=
  match fs, ws with
  | [], _ => Some []
  | _ :: _, [] => None
  | f :: fs, w :: ws => match g f w with Some f => match overFields g fs ws with Some fs => Some (f :: fs) | None => None end | None => None end
  end.
Definition setFields (p : zPCD) (r : option (list zPCDField)) : pset :=
  match r with Some fs => SOk (PCD fs (c_width p) (c_height p) (c_view p) (c_datatype p)) | None => SFail end.
(** 296-312 *)
Definition sizeField (f : zPCDField) (w : pword) : option zPCDField :=
  let s := atoi (w_text w) in
  let set b := Some (PFld (pf_type f) s b (pf_val f)) in
  if Z.eqb s 1 then set 0%nat else if Z.eqb s 2 then set 1%nat else if Z.eqb s 4 then set 2%nat else if Z.eqb s 8 then set 3%nat else None.
Definition readSize (p : zPCD) (ws : list pword) : pset := setFields p (overFields sizeField (c_field p) ws).
(** 314-325 *)
Definition typeField (f : zPCDField) (w : pword) : option zPCDField :=
  match attrFind (w_text w) ["I"; "U"; "F"]%string with Some v => Some (PFld (pf_type f) (pf_size f) (pf_bits f) (Some v)) | None => None end.
Definition readType (p : zPCD) (ws : list pword) : pset := setFields p (overFields typeField (c_field p) ws).
(** 327-338 *)
Definition countField (f : zPCDField) (w : pword) : option zPCDField := if Z.eqb (atoi (w_text w)) 1 then Some f else None.
Definition readCount (p : zPCD) (ws : list pword) : pset := setFields p (overFields countField (c_field p) ws).
(** 340-358 *)
Definition readWidth (p : zPCD) (ws : list pword) : pset :=
  match ws with [] => SFail | w :: _ => SOk (PCD (c_field p) (atoi (w_text w)) (c_height p) (c_view p) (c_datatype p)) end.
Definition readHeight (p : zPCD) (ws : list pword) : pset :=
  match ws with [] => SFail | w :: _ => SOk (PCD (c_field p) (c_width p) (atoi (w_text w)) (c_view p) (c_datatype p)) end.
(** 360-378: the result of zEPNormalize is ignored *)
Definition readView (p : zPCD) (ws : list pword) : pset :=
  match map w_val ws with
  | a :: b :: c :: d :: e :: f :: g :: _ =>
      match a, b, c, d, e, f, g with
      | Some a, Some b, Some c, Some d, Some e, Some f, Some g =>
          SOk (PCD (c_field p) (c_width p) (c_height p) (F3 (V3 a b c) (zMat3DFromEP (snd (zEPNormalize (Q4 d e f g))))) (c_datatype p))
      | _, _, _, _, _, _, _ => SUndef
      end
  | _ => SFail
  end.
(** 380-394 *)
Definition readPoints (p : zPCD) (ws : list pword) : pset :=
  match ws with [] => SFail | w :: _ => if Z.eqb (atoi (w_text w)) (c_width p * c_height p) then SOk p else SFail end.
(** 396-407 *)
Definition readData (p : zPCD) (ws : list pword) : pset :=
  match ws with
  | [] => SFail
  | w :: _ =>
      let set t := SOk (PCD (c_field p) (c_width p) (c_height p) (c_view p) (Some t)) in
      match attrFind (w_text w) ["ascii"; "binary"; "binary_compressed"]%string with
      | Some 0%nat => set PASCII | Some 1%nat => set PBINARY | Some _ => set PBINCOM | None => SFail
      end
  end.
(** 409-424 *)
Definition zPCDProperty : list (string * (zPCD -> list pword -> pset)) :=
  [("VERSION", readVersion); ("FIELDS", readFields); ("SIZE", readSize); ("TYPE", readType); ("COUNT", readCount);
   ("WIDTH", readWidth); ("HEIGHT", readHeight); ("VIEWPOINT", readView); ("POINTS", readPoints); ("DATA", readData)]%string.
(** 436-441: the search goes on from where the last one ended; strcmp of the null pointer at the end *)
Fixpoint advance (t : string) (ps : list (string * (zPCD -> list pword -> pset))) : option (list (string * (zPCD -> list pword -> pset))) :=
  match ps with [] => None | (k, r) :: more => if String.eqb t k then Some ps else advance t more end.
(** 426-446: SFail after a header without end and after an empty line *)
Fixpoint headerFRead (ls : list pline) (ps : list (string * (zPCD -> list pword -> pset))) (p : zPCD) : pset :=
  match ls with
  | [] => SFail
  | PComment :: ls => headerFRead ls ps p
  | PWords [] :: _ => SFail
  | PWords (t :: ws) :: ls =>
      match advance (w_text t) ps with
      | None | Some [] => SUndef
      | Some ((k, r) :: more) =>
          match r p ws with
          | SOk p => if String.eqb k "DATA" then SOk p else headerFRead ls ((k, r) :: more) p
          | SFail => SFail
          | SUndef => SUndef
          end
      end
  end.

(** all functions assigned, or undefined behaviour *)
Fixpoint assignAll {A} (g : zPCDField -> option A) (fs : list zPCDField) : option (list A) :=
  match fs with [] => Some [] | f :: fs => match g f, assignAll g fs with Some a, Some l => Some (a :: l) | _, _ => None end end.
(** 87-96 *)
Definition assignASCII (f : zPCDField) : option (option (nat * vtp)) :=
  match pf_type f with
  | None => Some None
  | Some k => match pcdTable (pf_val f) (pf_bits f) with None => None | Some None => Some None | Some (Some t) => Some (Some (k, t)) end
  end.
(** 456-464 *)
Fixpoint asciiRow (rnd : R -> R) (rs : list (option (nat * vtp))) (ws : list pword) (v : ovec) : ovec :=
  match rs, ws with
  | r :: rs, w :: ws => asciiRow rnd rs ws (match r with Some (k, t) => putCoord k (asciiVal rnd t w) v | None => v end)
  | _, _ => v
  end.
(** 465-468, 483-486: the result of zVec3DDataAdd is ignored *)
Definition addPoint (vp : frame3) (v : ovec) (d : data vec3) : data vec3 :=
  match finite v with Some v => fst (zVecXDDataAdd d (zXform3D vp v)) | None => d end.
(** 448-470 *)
Definition asciiFRead (rnd : R -> R) (rs : list (option (nat * vtp))) (vp : frame3) (lines : list (list pword)) (d : data vec3) : data vec3 :=
  fold_left (fun d ws => addPoint vp (asciiRow rnd rs ws ozero) d) lines d.
(** 161-166: a field that is no coordinate is read over by the function for its type *)
Definition assignBIN (f : zPCDField) : option (option (option nat * vtp)) :=
  match pcdTable (pf_val f) (pf_bits f) with None => None | Some None => Some None | Some (Some t) => Some (Some (pf_type f, t)) end.
(** 479-482, 98-103: fread of too few bytes takes them all and leaves the end of file noted *)
Fixpoint binRow (cd : pcodes) (rs : list (option (option nat * vtp))) (s : list Z) (eof : bool) (v : ovec) : list Z * bool * ovec :=
  match rs with
  | [] => (s, eof, v)
  | None :: rs => binRow cd rs s eof v
  | Some (k, t) :: rs =>
      if Nat.ltb (length s) (vtpSize t) then binRow cd rs [] true v
      else binRow cd rs (skipn (vtpSize t) s) eof (match k with Some k => putCoord k (binVal cd t (firstn (vtpSize t) s)) v | None => v end)
  end.
(** 472-489: [None] when the fuel is used up *)
Fixpoint binFRead (fuel : nat) (cd : pcodes) (rs : list (option (option nat * vtp))) (vp : frame3) (s : list Z) (eof : bool) (d : data vec3) : option (data vec3) :=
  if eof then Some d
  else match fuel with
       | O => None
       | Datatypes.S fuel => let '(s, eof, v) := binRow cd rs s false ozero in binFRead fuel cd rs vp s eof (addPoint vp v d)
       end.
(** 203-207 *)
Definition assignBINCOM (f : zPCDField) : option (option (nat * vtp)) := assignASCII f.
(** 527-532: [None] is undefined behaviour; the bytes left and the points *)
Fixpoint comColumn (n : nat) (cd : pcodes) (r : option (nat * vtp)) (size : nat) (s : list Z) (d : data ovec) : option (list Z * data ovec) :=
  match n with
  | O => Some (s, d)
  | Datatypes.S n =>
      match zVecXDDataFetch d with
      | (d, None) => comColumn n cd r size s d
      | (d, Some v) =>
          match r with
          | None => None
          | Some (k, t) =>
              if Nat.ltb (length s) (vtpSize t) then None
              else match putAt (d_store d) (d_i d - 1) (putCoord k (binVal cd t (firstn (vtpSize t) s)) v) with
                   | Some l => comColumn n cd r size (skipn size s) (DT (d_method d) l (d_size d) (d_cap d) (d_i d) (d_c d))
                   | None => None
                   end
          end
      end
  end.
(** 523-535 *)
Fixpoint comFields (cd : pcodes) (n : nat) (fs : list zPCDField) (rs : list (option (nat * vtp))) (s : list Z) (d : data ovec) : option (data ovec) :=
  match fs, rs with
  | f :: fs, r :: rs =>
      match pf_type f with
      | Some _ => match comColumn n cd r (Z.to_nat (pf_size f)) s (zVecXDDataRewind d) with Some (s, d) => comFields cd n fs rs s d | None => None end
      | None => comFields cd n fs rs (skipn (Z.to_nat (pf_size f) * n) s) d
      end
  | _, _ => Some d
  end.

Inductive pres := PFail | PDone (points : list vec3) | PUndef | PForever.
Definition points_of {A} (d : data A) : list A := firstn (d_size d) (d_store d).
(** 491-542, with __ZEO_USE_PCD_BINARY_COMPRESSED as in config.org; the viewpoint is not used *)
Definition comFRead (cd : pcodes) (lzf : list Z -> nat -> option (list Z)) (p : zPCD) (rs : list (option (nat * vtp))) (s : list Z) (d : data ovec) : pres :=
  if Nat.ltb (length s) 8 then PFail
  else
    let nc := Z.to_nat (unsignedZ (firstn 4 s)) in let nd := Z.to_nat (unsignedZ (firstn 4 (skipn 4 s))) in let s := skipn 8 s in
    if (Nat.eqb nc 0 || Nat.eqb nd 0 || Nat.ltb (length s) nc)%bool then PFail
    else match lzf (firstn nc s) nd with
         | None => PFail
         | Some out =>
             if negb (Nat.eqb (length out) nd) then PFail
             else match comFields cd (Z.to_nat (c_width p * c_height p)) (c_field p) rs out d with
                  | None => PUndef
                  | Some d => PDone (flat_map (fun v => match finite v with Some v => [v] | None => [] end) (points_of d))
                  end
         end.
(** a file: what follows the header as lines and as bytes *)
Record pfile := PFile { p_head : list pline; p_lines : list (list pword); p_bytes : list Z }.
(** 545-576 (zVec3DDataInitArray refuses a negative size) *)
Definition zVec3DDataFReadPCD (fuel : nat) (rnd : R -> R) (cd : pcodes) (lzf : list Z -> nat -> option (list Z)) (f : pfile) : pres :=
  match headerFRead (p_head f) zPCDProperty zPCDInit with
  | SFail => PFail
  | SUndef => PUndef
  | SOk p =>
      let n := (c_width p * c_height p)%Z in
      if Z.ltb n 0 then PFail
      else
        match c_datatype p with
        | Some PASCII =>
            match assignAll assignASCII (c_field p) with
            | None => PUndef
            | Some rs => PDone (points_of (asciiFRead rnd rs (c_view p) (p_lines f) (zVecXDDataInitArray (Z.to_nat n))))
            end
        | Some PBINARY =>
            match assignAll assignBIN (c_field p) with
            | None => PUndef
            | Some rs => match binFRead fuel cd rs (c_view p) (p_bytes f) false (zVecXDDataInitArray (Z.to_nat n)) with Some d => PDone (points_of d) | None => PForever end
            end
        | Some PBINCOM =>
            match assignAll assignBINCOM (c_field p) with
            | None => PUndef
            | Some rs => comFRead cd lzf p rs (p_bytes f) (zVecXDDataInitArray (Z.to_nat n))
            end
        | None => PFail
        end
  end.

(** "%d" *)
Fixpoint decimal (fuel n : nat) : list nat :=
  match fuel with O => [n] | Datatypes.S fuel => if Nat.ltb n 10 then [n] else decimal fuel (n / 10) ++ [(n mod 10)%nat] end.
Definition showNat (n : nat) : string := digits_text (decimal n n).
(** words that are no numbers to atof, and numbers *)
Definition tw (s : string) : pword := PW s (Some 0).
Definition tn (s : string) (x : R) : pword := PW s (Some x).
(** 595-607 *)
Definition headerFWrite (n : nat) : list pline :=
  [PComment;
   PWords [tw "VERSION"; tn ".7" (7/10)];
   PWords [tw "FIELDS"; tw "x"; tw "y"; tw "z"];
   PWords [tw "SIZE"; tn "8" 8; tn "8" 8; tn "8" 8];
   PWords [tw "TYPE"; tw "F"; tw "F"; tw "F"];
   PWords [tw "COUNT"; tn "1" 1; tn "1" 1; tn "1" 1];
   PWords [tw "WIDTH"; tn (showNat n) (INR n)];
   PWords [tw "HEIGHT"; tn "1" 1];
   PWords [tw "VIEWPOINT"; tn "0" 0; tn "0" 0; tn "0" 0; tn "1" 1; tn "0" 0; tn "0" 0; tn "0" 0];
   PWords [tw "POINTS"; tn (showNat n) (INR n)]].
(** 609-641: [pr] is what remains of a number printed with "%.10g", [txt] the text.  Points are
    those of a data set, each fetched once (C42); the header is written even if the format is refused *)
Definition zVec3DDataFWritePCD (pr : R -> R) (txt : R -> string) (cd : pcodes) (format : string) (pts : list vec3) : bool * pfile :=
  let h := headerFWrite (length pts) in
  match attrFind format ["ascii"; "binary"; "binary_compressed"]%string with
  | Some 0%nat => (true, PFile (h ++ [PWords [tw "DATA"; tw "ascii"]]) (map (fun v => map (fun x => tn (txt x) (pr x)) [vx v; vy v; vz v]) pts) [])
  | Some 1%nat => (true, PFile (h ++ [PWords [tw "DATA"; tw "binary"]]) [] (flat_map (fun v => bytes_of cd (vx v) ++ bytes_of cd (vy v) ++ bytes_of cd (vz v)) pts))
  | _ => (false, PFile h [] [])
  end.

(** Model of DAE (COLLADA) files: src/zeo_ph3d_dae.c.
    A file is the tree of its elements that libxml2 makes of it; text between elements is
    given by its words, each by what atoi and atof make of it.  Elements are looked up among
    siblings (zXMLFindNodeElement).  The macro zXMLCheckElementAndExec of ZEDA either ignores
    the value of the function it calls or returns false if that is false: [strict] stands for
    the second.  Counts are not negative and do not overflow.  Memory allocation succeeds; messages are left out.
    [RUndef] is undefined behaviour. *)
From Coq Require Export Ascii String List ZArith.
From Verif Require Export Base ModelVec ModelMat ModelFrame ModelElem ModelPH ModelPly ModelObj ModelZtk SpecObj SpecDae.
Import ListNotations.
Open Scope R_scope.

(** zXMLFindNodeAttr *)
Fixpoint attrOf (as_ : list (string * string)) (key : string) : option string :=
  match as_ with [] => None | (k, v) :: r => if String.eqb k key then Some v else attrOf r key end.
Definition zXMLFindNodeAttr (n : xnode) (key : string) : option string := attrOf (xattrs n) key.
Definition zXMLFindNodeElement (l : list xnode) (key : string) : option xnode := find (fun n => String.eqb (xname n) key) l.
(** atoi on a count *)
Definition uintOf (s : string) : option nat := if (atoi s <? 0)%Z then None else Some (Z.to_nat (atoi s)).

(** 9-19 *)
Inductive zDAECoordType := DINVALID | DXYZ | DTEXTURE.
Record zDAESrc := SRC { sid : option string; scount : nat; svcount : nat; sstride : nat; scontent : option (list xword); sacc : list nat; stype : zDAECoordType }.
(** 21-29 *)
Definition zDAESrcInit : zDAESrc := SRC None 0 0 0 None [0; 0; 0]%nat DINVALID.
(** 33-42: strcmp of a null pointer is undefined *)
Fixpoint zDAESrcFind (sl : list zDAESrc) (str : string) : rd (option zDAESrc) :=
  match sl with
  | [] => ROk None
  | s :: sl => match sid s with None => RUndef | Some i => if String.eqb i str then ROk (Some s) else zDAESrcFind sl str end
  end.
(** 44-50, 52-59 *)
Record zDAEPrimitive := PRIM { pvcount : option (list xword); pcount : nat; pni : nat; pvoffset : nat; pp : option (list xword) }.
Definition zDAEPrimitiveInit : zDAEPrimitive := PRIM None 0 0 0 None.
(** 64-81: lists from the tail, that is in the order of the file *)
Record zDAEMesh := MESH { mslist : list zDAESrc; mvert : option zDAESrc; mid : option string; mvid : option string; mplist : list zDAEPrimitive; mframe : frame3 }.
Definition zDAEMeshInit : zDAEMesh := MESH [] None None None [] ZFRAME3DIDENT.
(** 102-111 *)
Fixpoint zDAEMeshListFind (ml : list zDAEMesh) (id : string) (k : nat) : rd (option nat) :=
  match ml with
  | [] => ROk None
  | m :: ml => match mid m with None => RUndef | Some i => if String.eqb i id then ROk (Some k) else zDAEMeshListFind ml id (Datatypes.S k) end
  end.

Section Dae.
Variable strict : bool.
(** zXMLForEachNode with zXMLCheckElementAndExec *)
Fixpoint eachNode {S} (exec : S -> xnode -> rd S) (s : S) (l : list xnode) : rd S :=
  match l with
  | [] => ROk s
  | n :: l =>
      match exec s n with
      | ROk s => eachNode exec s l
      | RFail s => if strict then RFail s else eachNode exec s l
      | RUndef => RUndef
      end
  end.

(** 114-123 *)
Fixpoint floatCount (as_ : list (string * string)) (c : nat) : option nat :=
  match as_ with
  | [] => Some c
  | (k, v) :: r => if String.eqb k "count" then match uintOf v with Some c => floatCount r c | None => None end else floatCount r c
  end.
Definition zDAESrcEvalFloatArray (n : xnode) (s : zDAESrc) : rd zDAESrc :=
  match floatCount (xattrs n) (scount s) with
  | Some c => ROk (SRC (sid s) c (svcount s) (sstride s) (xtext n) (sacc s) (stype s))
  | None => RUndef
  end.
(** 125-141: more than three accessors are written outside of the array *)
Definition accessorLetter (c : ascii) : option (nat * zDAECoordType) :=
  if (Ascii.eqb c "x" || Ascii.eqb c "X")%bool then Some (0%nat, DXYZ)
  else if (Ascii.eqb c "y" || Ascii.eqb c "Y")%bool then Some (1%nat, DXYZ)
  else if (Ascii.eqb c "z" || Ascii.eqb c "Z")%bool then Some (2%nat, DXYZ)
  else if (Ascii.eqb c "s" || Ascii.eqb c "S")%bool then Some (0%nat, DTEXTURE)
  else if (Ascii.eqb c "t" || Ascii.eqb c "T")%bool then Some (1%nat, DTEXTURE)
  else None.
Fixpoint zDAESrcSetAccessor (as_ : list (string * string)) (s : zDAESrc) (i : nat) : rd zDAESrc :=
  match as_ with
  | [] => ROk s
  | (k, v) :: r =>
      if String.eqb k "name" then
        match v with
        | EmptyString => RUndef
        | String c _ =>
            match accessorLetter c with
            | Some (a, t) => match putAt (sacc s) i a with
                             | Some acc => zDAESrcSetAccessor r (SRC (sid s) (scount s) (svcount s) (sstride s) (scontent s) acc t) i
                             | None => RUndef
                             end
            | None => zDAESrcSetAccessor r s i
            end
        end
      else zDAESrcSetAccessor r s i
  end.
(** 143-170 *)
Fixpoint accessorAttrs (as_ : list (string * string)) (s : zDAESrc) : rd zDAESrc :=
  match as_ with
  | [] => ROk s
  | (k, v) :: r =>
      if String.eqb k "count" then match uintOf v with Some c => accessorAttrs r (SRC (sid s) (scount s) c (sstride s) (scontent s) (sacc s) (stype s)) | None => RUndef end
      else if String.eqb k "stride" then match uintOf v with Some c => accessorAttrs r (SRC (sid s) (scount s) (svcount s) c (scontent s) (sacc s) (stype s)) | None => RUndef end
      else accessorAttrs r s
  end.
Fixpoint accessorParams (l : list xnode) (s : zDAESrc) (i : nat) : rd zDAESrc :=
  match l with
  | [] => ROk s
  | n :: l =>
      if String.eqb (xname n) "param" then
        match zDAESrcSetAccessor (xattrs n) s i with
        | ROk s => if Nat.ltb (sstride s) (Datatypes.S i) then RFail s else accessorParams l s (Datatypes.S i)
        | r => r
        end
      else if Nat.ltb (sstride s) i then RFail s else accessorParams l s i
  end.
Definition zDAESrcEvalAccessor (l : list xnode) (s : zDAESrc) : rd zDAESrc :=
  match zXMLFindNodeElement l "accessor" with
  | None => RFail s
  | Some n =>
      match accessorAttrs (xattrs n) s with
      | ROk s => if Nat.eqb (svcount s * sstride s) (scount s) then accessorParams (xkids n) s 0 else RFail s
      | r => r
      end
  end.
(** 172-189 *)
Definition zDAESrcEval (n : xnode) (sl : list zDAESrc) : rd (list zDAESrc) :=
  match eachNode (fun s k => if String.eqb (xname k) "float_array" then zDAESrcEvalFloatArray k s
                             else if String.eqb (xname k) "technique_common" then zDAESrcEvalAccessor (xkids k) s else ROk s)
          (SRC (zXMLFindNodeAttr n "id") 0 0 0 None [0; 0; 0]%nat DINVALID) (xkids n) with
  | ROk s => ROk (sl ++ [s])
  | RFail s => RFail (sl ++ [s])
  | RUndef => RUndef
  end.
(** 191-204 *)
Definition zDAEEvalURI (n : xnode) (key : string) : option string :=
  match zXMLFindNodeAttr n key with
  | Some (String c r) => if Ascii.eqb c "#" then Some r else None
  | _ => None
  end.
(** 206-231: [None] in the inner loop is the break *)
Fixpoint vertInput (as_ : list (string * string)) (n : xnode) (m : zDAEMesh) : option (rd zDAEMesh) :=
  match as_ with
  | [] => None
  | (k, v) :: r =>
      if (String.eqb k "semantic" && String.eqb v "POSITION")%bool then
        match zDAEEvalURI n "source" with
        | None => None
        | Some id =>
            match zDAESrcFind (mslist m) id with
            | ROk (Some s) =>
                let m := MESH (mslist m) (Some s) (mid m) (mvid m) (mplist m) (mframe m) in
                Some (match stype s with DXYZ => ROk m | _ => RFail m end)
            | ROk None | RFail _ => Some (RFail (MESH (mslist m) None (mid m) (mvid m) (mplist m) (mframe m)))
            | RUndef => Some RUndef
            end
        end
      else vertInput r n m
  end.
Fixpoint vertInputs (l : list xnode) (m : zDAEMesh) : rd zDAEMesh :=
  match l with
  | [] => RFail m
  | n :: l => if String.eqb (xname n) "input" then match vertInput (xattrs n) n m with Some r => r | None => vertInputs l m end else vertInputs l m
  end.
Definition zDAESrcEvalVert (n : xnode) (m : zDAEMesh) : rd zDAEMesh :=
  vertInputs (xkids n) (MESH (mslist m) (mvert m) (mid m) (zXMLFindNodeAttr n "id") (mplist m) (mframe m)).
(** 233-271 *)
Fixpoint faceInput (as_ : list (string * string)) (n : xnode) (vid : option string) (offset : nat) (p : zDAEPrimitive) : rd zDAEPrimitive :=
  match as_ with
  | [] => ROk p
  | (k, v) :: r =>
      if (String.eqb k "semantic" && String.eqb v "VERTEX")%bool then
        match zDAEEvalURI n "source" with
        | None => RFail p
        | Some id =>
            let p := PRIM (pvcount p) (pcount p) (pni p) offset (pp p) in
            match vid with
            | None => RUndef
            | Some w => if String.eqb w id then faceInput r n vid offset p else RFail p
            end
        end
      else faceInput r n vid offset p
  end.
Fixpoint faceNodes (l : list xnode) (vid : option string) (p : zDAEPrimitive) : rd zDAEPrimitive :=
  match l with
  | [] => ROk (PRIM (pvcount p) (pcount p) (Datatypes.S (pni p)) (pvoffset p) (pp p))
  | n :: l =>
      if String.eqb (xname n) "input" then
        match zXMLFindNodeAttr n "offset" with
        | None => RUndef
        | Some v =>
            match uintOf v with
            | None => RUndef
            | Some offset =>
                match faceInput (xattrs n) n vid offset (PRIM (pvcount p) (pcount p) (Nat.max (pni p) offset) (pvoffset p) (pp p)) with
                | ROk p => faceNodes l vid p
                | r => r
                end
            end
        end
      else if String.eqb (xname n) "vcount" then faceNodes l vid (PRIM (xtext n) (pcount p) (pni p) (pvoffset p) (pp p))
      else if String.eqb (xname n) "p" then faceNodes l vid (PRIM (pvcount p) (pcount p) (pni p) (pvoffset p) (xtext n))
      else faceNodes l vid p
  end.
Definition addPrim (m : zDAEMesh) (p : zDAEPrimitive) : zDAEMesh := MESH (mslist m) (mvert m) (mid m) (mvid m) (mplist m ++ [p]) (mframe m).
Definition zDAEPrimitiveEvalFace (n : xnode) (m : zDAEMesh) : rd zDAEMesh :=
  match zXMLFindNodeAttr n "count" with
  | None => RUndef
  | Some v =>
      match uintOf v with
      | None => RUndef
      | Some c =>
          match faceNodes (xkids n) (mvid m) (PRIM None c 0 0 None) with
          | ROk p => ROk (addPrim m p)
          | RFail p => RFail (addPrim m p)
          | RUndef => RUndef
          end
      end
  end.
(** 273-298 *)
Definition zDAEMeshEval (l : list xnode) (id : option string) (ml : list zDAEMesh) : rd (list zDAEMesh) :=
  let back (r : rd zDAEMesh) (k : zDAEMesh -> rd (list zDAEMesh)) : rd (list zDAEMesh) :=
    match r with ROk m => k m | RFail m => RFail (ml ++ [m]) | RUndef => RUndef end in
  back (eachNode (fun m n => if String.eqb (xname n) "source"
                             then match zDAESrcEval n (mslist m) with
                                  | ROk sl => ROk (MESH sl (mvert m) (mid m) (mvid m) (mplist m) (mframe m))
                                  | RFail sl => RFail (MESH sl (mvert m) (mid m) (mvid m) (mplist m) (mframe m))
                                  | RUndef => RUndef
                                  end
                             else ROk m) (MESH [] None id None [] ZFRAME3DIDENT) l)
  (fun m => back (eachNode (fun m n => if String.eqb (xname n) "vertices" then zDAESrcEvalVert n m else ROk m) m l)
  (fun m => back (eachNode (fun m n => if (String.eqb (xname n) "polylist" || String.eqb (xname n) "triangles")%bool then zDAEPrimitiveEvalFace n m else ROk m) m l)
  (fun m => ROk (ml ++ [m])))).
(** 300-310 *)
Definition zDAEMeshEvalGeometry (n : xnode) (ml : list zDAEMesh) : rd (list zDAEMesh) :=
  eachNode (fun ml k => if String.eqb (xname k) "mesh" then zDAEMeshEval (xkids k) (zXMLFindNodeAttr n "id") ml else ROk ml) ml (xkids n).
(** 312-322: the list is made here *)
Definition zDAEEvalLibraryGeometries (l : list xnode) : rd (list zDAEMesh) :=
  eachNode (fun ml k => if String.eqb (xname k) "geometry" then zDAEMeshEvalGeometry k ml else ROk ml) [] l.
(** sscanf of numbers: with fewer words variables keep what is in memory *)
Definition scan (l : list xword) (n : nat) : option (list R) := if Nat.leb n (length l) then Some (map wreal (firstn n l)) else None.
(** 324-341: [c.xx], [c.xy], [c.xz] is the first column *)
Definition zDAEGetXform (n : xnode) (f : frame3) : rd frame3 :=
  match xtext n with
  | None => RFail f
  | Some l =>
      match scan l 16 with
      | Some [xx; xy; xz; x; yx; yy; yz; y; zx; zy; zz; z; _; _; _; s] =>
          let p := V3 x y z in let m := M3 xx xy xz yx yy yz zx zy zz in
          ROk (F3 (match zVec3DDiv p s with Some p => p | None => p end) (match zMat3DDiv m s with Some m => m | None => m end))
      | _ => RUndef
      end
  end.
(** 343-355 *)
Definition zDAEGetTrans (n : xnode) (f : frame3) : rd frame3 :=
  match xtext n with
  | None => RFail f
  | Some l => match scan l 3 with Some [x; y; z] => ROk (F3 (zVec3DAdd (fpos f) (V3 x y z)) (fatt f)) | _ => RUndef end
  end.
(** 357-371 *)
Definition zDAEGetRot (n : xnode) (f : frame3) : rd frame3 :=
  match xtext n with
  | None => RFail f
  | Some l => match scan l 4 with Some [x; y; z; q] => ROk (F3 (fpos f) (zMat3DRot (fatt f) (zVec3DMul (V3 x y z) (zDeg2Rad q)))) | _ => RUndef end
  end.
(** 373-393: [c.xx], [c.yx], [c.zx] is the first row *)
Definition zDAEGetScale (n : xnode) (f : frame3) : rd frame3 :=
  match xtext n with
  | None => RFail f
  | Some l =>
      match scan l 3 with
      | Some [rx; ry; rz] => let a := fatt f in
          ROk (F3 (fpos f) (M3 (cxx a * rx) (cxy a * ry) (cxz a * rz) (cyx a * rx) (cyy a * ry) (cyz a * rz) (czx a * rx) (czy a * ry) (czz a * rz)))
      | _ => RUndef
      end
  end.
(** 395-416: [ml] is [None] as long as the list has not been made *)
Fixpoint xformNodes (l : list xnode) (ml : option (list zDAEMesh)) (f : frame3) (mesh : option nat) : rd (frame3 * option nat) :=
  let go (r : rd frame3) l := match r with
    | ROk f => xformNodes l ml f mesh
    | RFail f => if strict then RFail (f, mesh) else xformNodes l ml f mesh
    | RUndef => RUndef end in
  match l with
  | [] => ROk (f, mesh)
  | n :: l =>
      if String.eqb (xname n) "matrix" then go (zDAEGetXform n f) l
      else if String.eqb (xname n) "translate" then go (zDAEGetTrans n f) l
      else if String.eqb (xname n) "rotate" then go (zDAEGetRot n f) l
      else if String.eqb (xname n) "scale" then go (zDAEGetScale n f) l
      else if String.eqb (xname n) "instance_geometry" then
        match zDAEEvalURI n "url" with
        | None => RFail (f, mesh)
        | Some id => match ml with
                     | None => RUndef
                     | Some m => match zDAEMeshListFind m id 0 with ROk mesh => xformNodes l ml f mesh | _ => RUndef end
                     end
        end
      else xformNodes l ml f mesh
  end.
Definition setFrame (ml : list zDAEMesh) (k : nat) (f : frame3) : list zDAEMesh :=
  match nth_error ml k with
  | Some m => firstn k ml ++ MESH (mslist m) (mvert m) (mid m) (mvid m) (mplist m) f :: skipn (Datatypes.S k) ml
  | None => ml
  end.
Definition zDAEEvalXform (l : list xnode) (ml : option (list zDAEMesh)) : rd (option (list zDAEMesh)) :=
  match xformNodes l ml ZFRAME3DIDENT None with
  | ROk (f, Some k) => ROk (match ml with Some m => Some (setFrame m k f) | None => None end)
  | ROk (_, None) => ROk ml
  | RFail _ => RFail ml
  | RUndef => RUndef
  end.
(** 418-430 *)
Definition zDAEEvalLibraryVisualScenes (l : list xnode) (ml : option (list zDAEMesh)) : rd (option (list zDAEMesh)) :=
  match zXMLFindNodeElement l "visual_scene" with
  | None => RFail ml
  | Some n => eachNode (fun ml k => if String.eqb (xname k) "node" then zDAEEvalXform (xkids k) ml else ROk ml) ml (xkids n)
  end.
(** 432-452 *)
Definition zDAEEval (root : xnode) : rd (option (list zDAEMesh)) :=
  if String.eqb (xname root) "COLLADA" then
    match eachNode (fun ml k =>
        if String.eqb (xname k) "library_geometries" then
          match zDAEEvalLibraryGeometries (xkids k) with ROk l => ROk (Some l) | RFail l => RFail (Some l) | RUndef => RUndef end
        else if String.eqb (xname k) "library_visual_scenes" then zDAEEvalLibraryVisualScenes (xkids k) ml else ROk ml) None (xkids root) with
    | ROk None => RUndef
    | ROk (Some []) => RFail (Some [])
    | r => r
    end
  else RFail None.

(** 454-484: the vertices; a stride above three reads outside of the accessors *)
Definition setE (v : vec3) (a : nat) (x : R) : vec3 := match a with O => V3 x (vy v) (vz v) | 1%nat => V3 (vx v) x (vz v) | _ => V3 (vx v) (vy v) x end.
Fixpoint readVert (j stride : nat) (acc : list nat) (ws : list xword) (v : vec3) : option (vec3 * list xword) :=
  match stride with
  | O => Some (v, ws)
  | Datatypes.S k =>
      match nth_error acc j with
      | None => None
      | Some a => readVert (Datatypes.S j) k acc (tl ws) (setE v a (wreal (hd wnone ws)))
      end
  end.
Fixpoint readVerts (n : nat) (s : zDAESrc) (f : frame3) (junk : vec3) (ws : list xword) : option (list vec3) :=
  match n with
  | O => Some []
  | Datatypes.S n =>
      match readVert 0 (sstride s) (sacc s) ws junk with
      | None => None
      | Some (v, ws) => match readVerts n s f junk ws with Some l => Some (zXform3D f v :: l) | None => None end
      end
  end.
Definition meshVerts (junk : vec3) (m : zDAEMesh) : option (list vec3) :=
  match mvert m with
  | None => None
  | Some s =>
      match scontent s with
      | None => if Nat.eqb (svcount s) 0 then Some [] else if Nat.eqb (sstride s) 0 then readVerts (svcount s) s (mframe m) junk [] else None
      | Some ws => readVerts (svcount s) s (mframe m) junk ws
      end
  end.
Fixpoint allVerts (junk : vec3) (ml : list zDAEMesh) : option (list vec3) :=
  match ml with
  | [] => Some []
  | m :: ml => match meshVerts junk m, allVerts junk ml with Some a, Some b => Some (a ++ b) | _, _ => None end
  end.
(** 485-516: the faces of one primitive; those behind a polygon that is not a triangle are not made.
    Without the offset of a vertex among the words [vi] is not written *)
Fixpoint primFaces (n : nat) (p : zDAEPrimitive) (vs : list vec3) (vo : nat) (vp : option (list xword)) (sp : list xword) : option (list (option face)) :=
  match n with
  | O => Some []
  | Datatypes.S k =>
      let ns := match vp with Some ws => wint (hd wnone ws) | None => 3%Z end in
      if negb (Z.eqb ns 3) then Some (repeat None n)
      else if Nat.ltb (pvoffset p) (pni p) then
        let at_ j := (Z.of_nat vo + wint (nth (j * pni p + pvoffset p) sp wnone))%Z in
        match makeFace vs (at_ 0%nat) (at_ 1%nat) (at_ 2%nat) with
        | None => None
        | Some fc => match primFaces k p vs vo (match vp with Some ws => Some (tl ws) | None => None end) (skipn (3 * pni p) sp) with
                     | Some l => Some (Some fc :: l)
                     | None => None
                     end
        end
      else None
  end.
Definition primAll (vs : list vec3) (vo : nat) (p : zDAEPrimitive) : option (list (option face)) :=
  match pp p with
  | Some sp => primFaces (pcount p) p vs vo (pvcount p) sp
  | None =>
      (* a null pointer is not read if no face is *)
      match pcount p with
      | O => Some []
      | _ => match pvcount p with Some ws => if Z.eqb (wint (hd wnone ws)) 3 then None else Some (repeat None (pcount p)) | None => None end
      end
  end.
Fixpoint primsFaces (vs : list vec3) (vo : nat) (ps : list zDAEPrimitive) : option (list (option face)) :=
  match ps with
  | [] => Some []
  | p :: ps => match primAll vs vo p, primsFaces vs vo ps with Some a, Some b => Some (a ++ b) | _, _ => None end
  end.
Fixpoint allFaces (vs : list vec3) (vo : nat) (ml : list zDAEMesh) : option (list (option face)) :=
  match ml with
  | [] => Some []
  | m :: ml =>
      match mvert m with
      | None => None
      | Some s => match primsFaces vs vo (mplist m), allFaces vs (vo + svcount s) ml with Some a, Some b => Some (a ++ b) | _, _ => None end
      end
  end.
(** 91-100, 519-541: [DNull] is the null pointer; a list that has not been made is destroyed *)
Inductive dae_result := DUndef | DNull | DPoly (vs : list vec3) (fs : list (option face)).
Definition zPH3DReadFileDAE (junk : vec3) (root : xnode) : dae_result :=
  match zDAEEval root with
  | ROk (Some ml) =>
      match allVerts junk ml with
      | Some vs => match allFaces vs 0 ml with Some fs => DPoly vs fs | None => DUndef end
      | None => DUndef
      end
  | RFail (Some _) => DNull
  | _ => DUndef
  end.
End Dae.

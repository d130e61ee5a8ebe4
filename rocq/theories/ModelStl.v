(** Model of STL files: src/zeo_ph3d_stl.c.
    A binary file is the list of its bytes, a text the list of its words; what follows the
    last byte or word is the end of the file.  Splitting a text into words (zFToken, zFDouble
    of ZEDA) is not modelled.  Numbers of a binary file go through a code of four bytes; the
    host is taken to be little-endian.  Numbers of a text are written with ten digits: [pr] is
    the number that the digits denote.  Memory allocation succeeds; messages are left out.
    An outer [None] is undefined behaviour. *)
From Verif Require Export Base SpecFile ModelVec ModelElem ModelPH ModelTree.
Open Scope R_scope.

(** ** vertices and facets *)

(** A pointer to a node of the tree of vertices is given by the identifier of the node; that of
    the root is 0 also while the tree is empty.  [junk] is the content of the uninitialised
    point of an empty root, [None] if a coordinate is not a number.  On an empty root
    zVec3DTreeNN compares coordinates at the index -1 (undefined behaviour in C); both
    branches are null, thus the outcome of that comparison does not matter and is left out. *)
(** the point of the node with an identifier *)
Fixpoint t_find (t : tree) (id : nat) : option vec3 :=
  match t with
  | Nil => None
  | Node _ i _ p _ c0 c1 => if Nat.eqb i id then Some p else match t_find c0 id with Some q => Some q | None => t_find c1 id end
  end.
Definition nodePoint (junk : option vec3) (t : tree) (h : nat) : option vec3 := match t with Nil => junk | _ => t_find t h end.
(** 10-18: the tree and the pointer returned *)
Definition zSTLVertReg (junk : option vec3) (t : tree) (v : vec3) : tree * nat :=
  match t with
  | Nil =>
      match junk with
      | Some j => if zVec3DEqual v j then (t, 0%nat) else (zVec3DTreeAddPoint t v, 0%nat)
      | None => (zVec3DTreeAddPoint t v, 0%nat)
      end
  | _ =>
      match zVec3DTreeNN t v with
      | Some (Some node, _) =>
          match t_id node, t_point node with
          | Some i, Some p => if zVec3DEqual v p then (t, i) else (zVec3DTreeAddPoint t v, t_size t)
          | _, _ => (zVec3DTreeAddPoint t v, t_size t)
          end
      | _ => (zVec3DTreeAddPoint t v, t_size t)
      end
  end.
(** 21-24 *)
Record facet := FT { ft1 : nat; ft2 : nat; ft3 : nat; ft_norm : vec3 }.
(** 28-48; the normal given is not used.  The list of facets is given from tail to head.
    [None]: an uninitialised point is read *)
Definition zSTLFacetListReg (junk : option vec3) (flist : list facet) (vtree : tree) (v : tri) : option (list facet * tree) :=
  let '(v0, v1, v2) := v in
  let '(vtree, vc1) := zSTLVertReg junk vtree v0 in
  let '(vtree, vc2) := zSTLVertReg junk vtree v1 in
  let '(vtree, vc3) := zSTLVertReg junk vtree v2 in
  match nodePoint junk vtree vc1, nodePoint junk vtree vc2, nodePoint junk vtree vc3 with
  | Some p1, Some p2, Some p3 => Some (flist ++ [FT vc1 vc2 vc3 (tnorm (snd (zTri3DCreate p1 p2 p3)))], vtree)
  | _, _, _ => None
  end.
(** 51-69: faces by the numbers of their vertices; every identifier is that of a node of the tree *)
Definition zSTLFacetListToTri3DArray (flist : list facet) : list face := map (fun f => FC (ft1 f) (ft2 f) (ft3 f) (ft_norm f)) flist.
(** a face as the numbers of its vertices and its normal *)
Definition face_key (f : face) : (nat * nat * nat) * vec3 := ((fi0 f, fi1 f, fi2 f), fnrm f).
(** 72-82; [None] is the null return *)
Definition zSTLToPH3D (vtree : tree) (flist : list facet) : option ph3 :=
  match zVec3DTreeToArray vtree with
  | Some vs => Some (PH vs (zSTLFacetListToTri3DArray flist))
  | None => None
  end.

(** ** text *)

(** outcome of a loop: a value, undefined behaviour, or out of fuel *)
Inductive outcome (A : Type) := Got (a : A) | Undef | More.
Arguments Got {A} a. Arguments Undef {A}. Arguments More {A}.
(** v[0], v[1], v[2], not initialised at first *)
Definition slots : Type := option vec3 * option vec3 * option vec3.
Definition slot_set (v : slots) (i : nat) (p : vec3) : slots :=
  let '(a, b, c) := v in match i with 0%nat => (Some p, b, c) | 1%nat => (a, Some p, c) | _ => (a, b, Some p) end.
Definition is_word (t : tok) (w : string) : bool := match t with TW u => String.eqb u w | TN _ => false end.
(** zVec3DFScan (src/zeo_vec3d.c 538-544) on three numbers; anything else is not modelled and taken as undefined *)
Definition scanVec (s : list tok) : option (vec3 * list tok) :=
  match s with TN x :: TN y :: TN z :: r => Some (V3 x y z, r) | _ => None end.
(** 98-117: what follows "loop"; the result, the vertices, the rest of the text *)
Fixpoint stlLoop (fuel : nat) (s : list tok) (i : nat) (v : slots) : outcome (bool * slots * list tok) :=
  match fuel with
  | O => More
  | S fuel =>
      match s with
      | [] => Got (false, v, [])
      | t :: r =>
          if is_word t "vertex" then
            if Nat.ltb 2 i then stlLoop fuel r i v
            else match scanVec r with
                 | Some (p, r) => stlLoop fuel r (S i) (slot_set v i p)
                 | None => Undef
                 end
          else if is_word t "endloop" then Got (negb (Nat.ltb i 3), v, r)
          else stlLoop fuel r i v
      end
  end.
(** 87-118 *)
Definition zPH3DFReadSTL_ASCIIloop (fuel : nat) (s : list tok) (v : slots) : outcome (bool * slots * list tok) :=
  match s with
  | [] => Got (false, v, [])
  | t :: r => if is_word t "loop" then stlLoop fuel r 0 v else Got (false, v, r)
  end.
(** 121-143: the facets, the tree and the rest of the text, [Got None] for the null return;
    the failure of a loop is ignored *)
Fixpoint zPH3DFReadSTL_ASCIIfacet (fuel : nat) (junk : option vec3) (s : list tok) (v : slots) (flist : list facet) (vtree : tree) : outcome (option (list facet * tree * list tok)) :=
  match fuel with
  | O => More
  | S fuel =>
      match s with
      | [] => Got None
      | t :: r =>
          if is_word t "normal" then
            match scanVec r with Some (_, r) => zPH3DFReadSTL_ASCIIfacet fuel junk r v flist vtree | None => Undef end
          else if is_word t "outer" then
            match zPH3DFReadSTL_ASCIIloop fuel r v with
            | Got (_, v, r) => zPH3DFReadSTL_ASCIIfacet fuel junk r v flist vtree
            | Undef => Undef
            | More => More
            end
          else if is_word t "endfacet" then
            match v with
            | (Some v0, Some v1, Some v2) =>
                match zSTLFacetListReg junk flist vtree (v0, v1, v2) with
                | Some (flist, vtree) => Got (Some (flist, vtree, r))
                | None => Undef
                end
            | _ => Undef
            end
          else zPH3DFReadSTL_ASCIIfacet fuel junk r v flist vtree
      end
  end.
(** 156-169: the loop *)
Fixpoint stlSolid (fuel : nat) (junk : option vec3) (s : list tok) (flist : list facet) (vtree : tree) : outcome (option ph3) :=
  match fuel with
  | O => More
  | S fuel =>
      match s with
      | [] => Got None
      | t :: r =>
          if is_word t "endsolid" then Got (zSTLToPH3D vtree flist)
          else if is_word t "facet" then
            match zPH3DFReadSTL_ASCIIfacet fuel junk r (None, None, None) flist vtree with
            | Got (Some (flist, vtree, r)) => stlSolid fuel junk r flist vtree
            | Got None => Got None
            | Undef => Undef
            | More => More
            end
          else stlSolid fuel junk r flist vtree
      end
  end.
(** 146-171: the polyhedron and the name *)
Definition zPH3DFReadSTL_ASCIIsolid (fuel : nat) (junk : option vec3) (s : list tok) : outcome (option ph3 * option tok) :=
  match s with
  | [] => Got (None, None)
  | name :: r =>
      match stlSolid fuel junk r [] zVec3DTreeInit with
      | Got ph => Got (ph, Some name)
      | Undef => Undef
      | More => More
      end
  end.
(** 174-186 *)
Fixpoint zPH3DFReadSTL_ASCII (fuel : nat) (junk : option vec3) (s : list tok) : outcome (option ph3 * option tok) :=
  match fuel with
  | O => More
  | S fuel =>
      match s with
      | [] => Got (None, None)
      | t :: r => if is_word t "solid" then zPH3DFReadSTL_ASCIIsolid fuel junk r else zPH3DFReadSTL_ASCII fuel junk r
      end
  end.
(** zVec3DValueFPrint (src/zeo_vec3d.c 547-552): three numbers with ten digits *)
Definition printVec (pr : R -> R) (v : vec3) : list tok := [TN (pr (vx v)); TN (pr (vy v)); TN (pr (vz v))].
(** 193-204 *)
Definition printFace (pr : R -> R) (t : tri3) : list tok :=
  [TW "facet"; TW "normal"] ++ printVec pr (tnorm t) ++ [TW "outer"; TW "loop"; TW "vertex"] ++ printVec pr (tv0 t)
  ++ [TW "vertex"] ++ printVec pr (tv1 t) ++ [TW "vertex"] ++ printVec pr (tv2 t) ++ [TW "endloop"; TW "endfacet"].
(** 189-206: [shapename] is given by its words; [None]: a face has an invalid vertex *)
Definition zPH3DFWriteSTL_ASCII (pr : R -> R) (ph : ph3) (shapename : list tok) : option (list tok) :=
  match zPH3DTris ph with
  | Some ts => Some ([TW "solid"] ++ shapename ++ flat_map (printFace pr) ts ++ [TW "endsolid"])
  | None => None
  end.

(** ** binary *)

(** fread of one item of [n] bytes: the item if there is one; on a short count the rest is consumed *)
Definition fread (n : nat) (s : list Z) : option (list Z) * list Z :=
  if Nat.leb n (length s) then (Some (firstn n s), skipn n s) else (None, []).
(** 209-221: the vector keeps its value if there are not enough bytes *)
Definition zPH3DFReadSTL_BinVec (c : fcodec) (s : list Z) (v : option vec3) : option vec3 * list Z :=
  match fread 4 s with
  | (Some b1, s) =>
      match fread 4 s with
      | (Some b2, s) =>
          match fread 4 s with
          | (Some b3, s) => (Some (V3 (fdec c b1) (fdec c b2) (fdec c b3)), s)
          | (None, s) => (v, s)
          end
      | (None, s) => (v, s)
      end
  | (None, s) => (v, s)
  end.
(** 224-234 *)
Definition zPH3DFWriteSTL_BinVec (c : fcodec) (v : vec3) : list Z := fenc c (vx v) ++ fenc c (vy v) ++ fenc c (vz v).
(** 239-255 *)
Definition zSTLIsBin (s : list Z) : bool :=
  match fread 80 s with
  | (Some _, r) =>
      match fread 4 r with
      | (Some b, _) => Z.eqb (Z.of_nat (length s)) (80 + 4 + of32 b * (4 * 12 + 2))
      | (None, _) => false
      end
  | (None, _) => false
  end.
(** 274-283: the loop; v[] keeps its values from one facet to the next.  The normal and the two
    bytes that follow a facet are read over *)
Fixpoint stlBinFacets (n : nat) (c : fcodec) (junk : option vec3) (s : list Z) (v : slots) (flist : list facet) (vtree : tree) : option (list facet * tree) :=
  match n with
  | O => Some (flist, vtree)
  | S n =>
      let '(w0, w1, w2) := v in
      let '(_, s) := zPH3DFReadSTL_BinVec c s None in
      let '(w0, s) := zPH3DFReadSTL_BinVec c s w0 in
      let '(w1, s) := zPH3DFReadSTL_BinVec c s w1 in
      let '(w2, s) := zPH3DFReadSTL_BinVec c s w2 in
      let '(_, s) := fread 2 s in
      match w0, w1, w2 with
      | Some v0, Some v1, Some v2 =>
          match zSTLFacetListReg junk flist vtree (v0, v1, v2) with
          | Some (flist, vtree) => stlBinFacets n c junk s (w0, w1, w2) flist vtree
          | None => None
          end
      | _, _, _ => None
      end
  end.
(** (int)nf *)
Definition int_of_u32 (n : Z) : Z := if Z.ltb n 2147483648 then n else (n - 4294967296)%Z.
(** 258-286: the polyhedron, null or not, and what is written to the name;
    [None]: the number of facets is not initialised, or a vertex is not *)
Definition zPH3DFReadSTL_Bin (c : fcodec) (junk : option vec3) (s : list Z) : option (option ph3 * list Z) :=
  let name := firstn 80 s in
  let '(_, r) := fread 80 s in
  match fread 4 r with
  | (Some b, r) =>
      if Z.leb (of32 b) 0 then Some (None, name)
      else match stlBinFacets (Z.to_nat (int_of_u32 (of32 b))) c junk r (None, None, None) [] zVec3DTreeInit with
           | Some (flist, vtree) => Some (zSTLToPH3D vtree flist, name)
           | None => None
           end
  | (None, _) => None
  end.
(** 299-304 *)
Definition binFace (c : fcodec) (t : tri3) : list Z :=
  zPH3DFWriteSTL_BinVec c (tnorm t) ++ zPH3DFWriteSTL_BinVec c (tv0 t) ++ zPH3DFWriteSTL_BinVec c (tv1 t) ++ zPH3DFWriteSTL_BinVec c (tv2 t) ++ [0; 0]%Z.
(** 289-307: [shapename] is the content of the memory it points to.  The number of faces is a
    non-negative int.  [None]: less than 80 bytes of memory, or an invalid vertex *)
Definition zPH3DFWriteSTL_Bin (c : fcodec) (ph : ph3) (shapename : list Z) : option (list Z) :=
  if Nat.ltb (length shapename) 80 then None
  else match zPH3DTris ph with
       | Some ts => Some (firstn 80 shapename ++ le32 (Z.of_nat (length ts)) ++ flat_map (binFace c) ts)
       | None => None
       end.
(** 310-329: [lex] splits the bytes of a text into words *)
Definition zPH3DReadFileSTL (lex : list Z -> list tok) (c : fcodec) (junk : option vec3) (s : list Z) : outcome (option ph3) :=
  if zSTLIsBin s
  then match zPH3DFReadSTL_Bin c junk s with Some (ph, _) => Got ph | None => Undef end
  else match zPH3DFReadSTL_ASCII (S (length (lex s))) junk (lex s) with
       | Got (ph, _) => Got ph
       | Undef => Undef
       | More => More
       end.

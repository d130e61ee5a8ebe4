(** Model of OBJ files: src/zeo_ph3d_obj.c.
    A file is the list of its lines; those that begin with "v " are given by the numbers that
    atof makes of their words, those that begin with "f " by their words.  The division into
    lines and words (fgets, zSTokenSkim) and atof are not modelled: every line fits into the
    buffer.  atoi is modelled on unbounded integers.  Memory allocation succeeds; messages are
    left out.  [None] is undefined behaviour: an index of no vertex. *)
From Coq Require Export Ascii String List ZArith.
From Verif Require Export Base SpecObj ModelVec ModelElem ModelPH ModelPly.
Import ListNotations.
Open Scope R_scope.

(** 9-20 *)
Definition zOBJCountVert (ls : list obj_line) : nat := length (filter (fun l => match l with LVert _ => true | _ => false end) ls).
Definition zOBJCountFace (ls : list obj_line) : nat := length (filter (fun l => match l with LFace _ => true | _ => false end) ls).
(** an array with one entry replaced *)
Fixpoint putAt {A} (l : list A) (i : nat) (x : A) : option (list A) :=
  match l, i with
  | [], _ => None
  | _ :: r, O => Some (x :: r)
  | a :: r, Datatypes.S i => match putAt r i x with Some r => Some (a :: r) | None => None end
  end.
(** 22-36: words that are missing are empty, atof makes zero of them *)
Definition zOBJFReadVert (xs : list R) (vs : list vec3) (vi : nat) : option (list vec3) :=
  putAt vs vi (V3 (nth 0 xs 0) (nth 1 xs 0) (nth 2 xs 0)).
(** atoi *)
Definition digitOf (c : ascii) : option Z := let n := nat_of_ascii c in if (Nat.leb 48 n && Nat.leb n 57)%bool then Some (Z.of_nat (n - 48)) else None.
Fixpoint atoiDigits (s : string) (acc : Z) : Z :=
  match s with
  | String c r => match digitOf c with Some d => atoiDigits r (10 * acc + d)%Z | None => acc end
  | EmptyString => acc
  end.
Definition atoi (s : string) : Z :=
  match s with
  | String c r => if Ascii.eqb c "-" then (- atoiDigits r 0)%Z else if Ascii.eqb c "+" then atoiDigits r 0 else atoiDigits s 0
  | EmptyString => 0%Z
  end.
(** strchr of a slash: what comes before *)
Fixpoint beforeSlash (s : string) : string :=
  match s with String c r => if Ascii.eqb c "/" then EmptyString else String c (beforeSlash r) | EmptyString => EmptyString end.
(** 38-61: the vertex index; those of texture and normal are not used by the caller *)
Definition zOBJFReadFaceIndex (tkn : string) : Z :=
  let t := beforeSlash tkn in match t with EmptyString => 0%Z | _ => (atoi t - 1)%Z end.
(** 63-79: the words behind the third are not read.  The face is made of the vertices as they
    are at that moment *)
Definition zOBJFReadFace (ws : list string) (vs : list vec3) : option face :=
  makeFace vs (zOBJFReadFaceIndex (nth 0 ws ""%string)) (zOBJFReadFaceIndex (nth 1 ws ""%string)) (zOBJFReadFaceIndex (nth 2 ws ""%string)).
(** 81-109: [nf] is the number of faces allocated *)
Fixpoint zOBJFReadPH3D (ls : list obj_line) (nf : nat) (vs : list vec3) (vi : nat) (fs : list face) : option ph3 :=
  match ls with
  | [] => Some (PH vs fs)
  | LVert xs :: ls => match zOBJFReadVert xs vs vi with Some vs => zOBJFReadPH3D ls nf vs (Datatypes.S vi) fs | None => None end
  | LFace ws :: ls =>
      match zOBJFReadFace ws vs with
      | Some f => if Nat.ltb (length fs) nf then zOBJFReadPH3D ls nf vs vi (fs ++ [f]) else None
      | None => None
      end
  | LOther :: ls => zOBJFReadPH3D ls nf vs vi fs
  end.
(** 112-139: [junk] is the content of memory that has just been allocated *)
Definition zPH3DFReadOBJ (junk : vec3) (ls : list obj_line) : option ph3 :=
  zOBJFReadPH3D ls (zOBJCountFace ls) (repeat junk (zOBJCountVert ls)) 0 [].

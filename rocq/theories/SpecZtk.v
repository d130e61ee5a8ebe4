(** Vocabulary for shape description files. *)
From Coq Require Import Ascii String.
From Verif Require Export Spec ModelMass SpecColor ModelZtk.
Open Scope R_scope.

(** the normal a triangle should carry: that of its corners, of unit length
    unless it is degenerate *)
Definition corner_normal (a b c n : vec3) : Prop :=
  let m := cross (vsub b a) (vsub c b) in
  (negligible m /\ n = m) \/ (~ negligible m /\ n = vscale (1 / norm m) m).
Definition unit3 (m : mat3) : Prop :=
  norm (V3 (cxx m) (cxy m) (cxz m)) = 1 /\ norm (V3 (cyx m) (cyy m) (cyz m)) = 1 /\ norm (V3 (czx m) (czy m) (czz m)) = 1.
(** the shapes a description file can hold exactly *)
Definition storable (b : shape3) : Prop :=
  match b with
  | ShBox b => unit3 (fatt (bframe b))
  | ShSphere s => (0 < sdiv s)%Z
  | ShEllips e => unit3 (fatt (elf e)) /\ (0 < eldiv e)%Z
  | ShCyl c | ShCapsule c => (0 < cdiv c)%Z
  | ShCone c => (0 < kdiv c)%Z
  | ShECyl c => let a := vsub (ec1 c) (ec0 c) in
      (0 < ecdiv c)%Z /\ ~ negligible a /\ norm (ev0 c) = 1 /\ dot a (ev0 c) = 0 /\ ev1 c = vscale (1 / norm (cross a (ev0 c))) (cross a (ev0 c)) /\ ~ negligible (cross a (ev0 c))
  | ShPH p => pverts p <> [] /\
      Forall (fun f => exists a b c, nth_error (pverts p) (fi0 f) = Some a /\ nth_error (pverts p) (fi1 f) = Some b /\ nth_error (pverts p) (fi2 f) = Some c /\
                       corner_normal a b c (fnrm f)) (pfaces p)
  end.
(** [i] is the number of the only element of its name that a search can meet *)
Definition names_first (l : list (option string)) (i : nat) : Prop :=
  exists n, nth_error l i = Some n /\ forall j m, (j < i)%nat -> nth_error l j = Some m -> zName m <> zName n.
(** no element has that name *)
Definition unused (l : list (option string)) (w : string) : Prop := forall n, List.In n l -> zName n <> w.
(** keys which place a shape *)
Definition placing (k : string) : bool := (String.eqb k "pos" || String.eqb k "att" || String.eqb k "rot" || String.eqb k "frame")%string.
Definition unplaced (d : sect) : Prop := Forall (fun e => placing (fst e) = false) d.
Definition isPlacing (e : entry) : bool := placing (fst e).
(** where the placing keys, in the order of the file, take a frame.  A rotation
    is written as the three components of the axis and the angle in degrees; it
    turns what came before.  An axis in parentheses makes the angle vanish *)
Inductive placed : frame3 -> list entry -> frame3 -> Prop :=
| pl_nil f : placed f [] f
| pl_pos f v x y z l g : v = [TNum x; TNum y; TNum z] \/ v = [TPar [x; y; z]] ->
    placed (F3 (V3 x y z) (fatt f)) l g -> placed f (("pos"%string, v) :: l) g
| pl_att f m l g : placed (F3 (fpos f) m) l g ->
    placed f (("att"%string, [TBrc [cxx m; cyx m; czx m; cxy m; cyy m; czy m; cxz m; cyz m; czz m]]) :: l) g
| pl_rot f x y z a l g : let u := vscale (1 / norm (V3 x y z)) (V3 x y z) in let t := a * PI / 180 in
    ~ negligible (V3 x y z) -> a = 0 \/ ~ negligible (vscale t u) ->
    placed (F3 (fpos f) (mmul (rodm u t) (fatt f))) l g -> placed f (("rot"%string, [TNum x; TNum y; TNum z; TNum a]) :: l) g
| pl_rot_par f x y z r l g : placed f l g -> placed f (("rot"%string, TPar [x; y; z] :: r) :: l) g
| pl_frame f m p l g : placed (F3 p m) l g ->
    placed f (("frame"%string, [TBrc [cxx m; cyx m; czx m; vx p; cxy m; cyy m; czy m; vy p; cxz m; cyz m; czz m; vz p]]) :: l) g.

(** ** Textures and files of several shapes *)
Definition texture_ok (t : texture) : Prop :=
  (exists w, xname t = Some w) /\ (exists f, xfile t = Some f) /\ xcoord t <> [] /\
  Forall (fun f => let n := length (xcoord t) in fst (fst f) < n /\ snd (fst f) < n /\ snd f < n)%nat (xface t) /\
  (if xbump t then xdepth t <> 0 else xdepth t = 1).
(** an optical property that is written exactly *)
Definition optic_ok (o : optic) : Prop :=
  (exists w, oname o = Some w) /\ (esr o = 0 \/ zTOL <= Rabs (esr o)) /\ (shininess o = 0 \/ zTOL <= Rabs (shininess o)) /\ (alpha o = 1 \/ zTOL <= Rabs (1 - alpha o)).
Definition attached (names : list (option string)) (i : option nat) : Prop := match i with Some i => names_first names i | None => True end.
Definition text (o : optic) : option string := option_map string_of_list_ascii (oname o).
Definition shape_ok (m : mshape) (h : shape) : Prop :=
  (exists w, hname h = Some w /\ w <> "(noname)"%string) /\ (exists b, hbody h = Some b /\ storable b) /\
  attached (map text (moptic m)) (hoptic h) /\ attached (map xname (mtex m)) (htex h).
(** sizes are not negative *)
Definition sized (b : shape3) : Prop :=
  match b with
  | ShBox b => 0 <= vx (bspan b) /\ 0 <= vy (bspan b) /\ 0 <= vz (bspan b)
  | ShEllips e => 0 <= vx (elrad e) /\ 0 <= vy (elrad e) /\ 0 <= vz (elrad e)
  | _ => True
  end.

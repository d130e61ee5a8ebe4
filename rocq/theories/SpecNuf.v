(** Vocabulary for files of spline surfaces. *)
From Coq Require Import Ascii String.
From Verif Require Export SpecNurbs ModelZtk.
From Coq Require Import List ZArith.
Import ListNotations.
Open Scope R_scope. Open Scope string_scope. Open Scope list_scope.

(** the first line of a key in a section *)
Definition first_line (k : string) (v : list tok) (d : sect) : Prop := exists d1 d2, d = d1 ++ (k, v) :: d2 /\ ~ List.In k (map fst d1).
(** a line for one control point: its two numbers, its weight and its place; the place in parentheses or bare *)
Record cpl := CL { cli : Z; clj : Z; clc : cell; clpar : bool }.
Definition cp_line (c : cpl) : entry := let p := nc_cp (clc c) in
  ("cp", [TInt (cli c); TInt (clj c); TNum (nc_w (clc c))] ++ (if clpar c then [TPar [vx p; vy p; vz p]] else [TNum (vx p); TNum (vy p); TNum (vz p)])).
Definition at_cp (i j : Z) (c : cpl) : Prop := cli c = i /\ clj c = j.
(** the last line for a control point; no line for it *)
Definition last_cp (d : sect) (i j : Z) (c : cpl) : Prop := exists d1 d2, d = d1 ++ cp_line c :: d2 /\ at_cp i j c /\ forall c', List.In (cp_line c') d2 -> ~ at_cp i j c'.
Definition no_cp (d : sect) (i j : Z) : Prop := forall c, List.In (cp_line c) d -> ~ at_cp i j c.
(** lines as they should be, for a net of [a] times [b] control points: [vr] reads knots *)
Definition good_line (vr : list tok -> option (list R)) (a b : Z) (e : entry) : Prop :=
  ((fst e = "uknot" \/ fst e = "vknot") -> exists ks, vr (snd e) = Some ks) /\
  (fst e = "size" -> exists p q, snd e = [TInt p; TInt q] /\ (0 < p)%Z /\ (0 < q)%Z) /\
  (fst e = "slice" -> exists p q, snd e = [TInt p; TInt q] /\ (0 <= p)%Z /\ (0 <= q)%Z) /\
  (fst e = "cp" -> exists c, e = cp_line c /\ (0 <= cli c < a)%Z /\ (0 <= clj c < b)%Z).
(** a surface with as many knots as control points and degrees ask for, both degrees positive *)
Definition storable (n : nurbs) : Prop :=
  (0 < nu_n0 n)%nat /\ (0 < nu_n1 n)%nat /\ (0 < bs_order (nu_0 n))%nat /\ (0 < bs_order (nu_1 n))%nat /\
  length (bs_knot (nu_0 n)) = (nu_n0 n + bs_order (nu_0 n) + 1)%nat /\ length (bs_knot (nu_1 n)) = (nu_n1 n + bs_order (nu_1 n) + 1)%nat.
(** the same surface: degrees, knots, slices, sizes and control points *)
Definition same_nurbs (n n' : nurbs) : Prop :=
  nu_0 n' = nu_0 n /\ nu_1 n' = nu_1 n /\ nu_n0 n' = nu_n0 n /\ nu_n1 n' = nu_n1 n /\ forall i j, (i < nu_n0 n)%nat -> (j < nu_n1 n)%nat -> nu_net n' i j = nu_net n i j.

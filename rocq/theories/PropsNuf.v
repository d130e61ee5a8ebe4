(** C90: files of spline surfaces. *)
From Coq Require Import Ascii String.
From Verif Require Import Base SpecNurbs SpecNuf ModelZtk ModelNurbs ModelNuf FactsNuf.
From Coq Require Import List ZArith.
From Coq Require Lra Lia.
Import ListNotations.
Open Scope R_scope. Open Scope string_scope. Open Scope list_scope.

(** what is written is read back *)
Theorem C90_round : forall vp vr mem sl n, (forall ks, ks <> [] -> vr (vp ks) = Some ks) -> storable n -> exists n', zNURBS3DFromZTK vr mem sl (zNURBS3DFPrintZTK vp n) = Some (Some n') /\ same_nurbs n n'.
Proof. exact nuf_round. Qed.
Print Assumptions C90_round.
(** and has the same points for all parameters *)
Theorem C90_points : forall seg n n' u v, same_nurbs n n' -> zNURBS3DVec seg n' u v = zNURBS3DVec seg n u v.
Proof. exact nuf_points. Qed.
Print Assumptions C90_points.
(** any file with the size before the control points: degrees from the numbers of knots, the last line for a control point counts *)
Theorem C90_read : forall vr mem sl d1 a b d2 v0 v1 ks0 ks1, let d := d1 ++ ("size", [TInt a; TInt b]) :: d2 in
  Forall (good_line vr a b) d -> ~ List.In "size" (map fst d1) -> ~ List.In "cp" (map fst d1) -> (0 < a)%Z -> (0 < b)%Z ->
  first_line "uknot" v0 d -> vr v0 = Some ks0 -> first_line "vknot" v1 d -> vr v1 = Some ks1 -> (a + 1 < Z.of_nat (length ks0))%Z -> (b + 1 < Z.of_nat (length ks1))%Z ->
  exists n, zNURBS3DFromZTK vr mem sl d = Some (Some n) /\ nu_n0 n = Z.to_nat a /\ nu_n1 n = Z.to_nat b /\ bs_knot (nu_0 n) = ks0 /\ bs_knot (nu_1 n) = ks1 /\
    length ks0 = (nu_n0 n + bs_order (nu_0 n) + 1)%nat /\ length ks1 = (nu_n1 n + bs_order (nu_1 n) + 1)%nat /\
    (forall p q, first_line "slice" [TInt p; TInt q] d -> bs_slice (nu_0 n) = Z.to_nat p /\ bs_slice (nu_1 n) = Z.to_nat q) /\
    (forall i j c, last_cp d2 (Z.of_nat i) (Z.of_nat j) c -> nu_net n i j = clc c) /\
    (forall i j, no_cp d2 (Z.of_nat i) (Z.of_nat j) -> nu_net n i j = mem (Z.of_nat i) (Z.of_nat j)).
Proof. exact nuf_read. Qed.
Print Assumptions C90_read.
(** too few knots *)
Theorem C90_few : forall vr mem sl d1 a b d2 v0 v1 ks0 ks1, let d := d1 ++ ("size", [TInt a; TInt b]) :: d2 in
  Forall (good_line vr a b) d -> ~ List.In "size" (map fst d1) -> ~ List.In "cp" (map fst d1) -> (0 < a)%Z -> (0 < b)%Z ->
  first_line "uknot" v0 d -> vr v0 = Some ks0 -> first_line "vknot" v1 d -> vr v1 = Some ks1 -> (Z.of_nat (length ks0) <= a + 1)%Z \/ (Z.of_nat (length ks1) <= b + 1)%Z ->
  zNURBS3DFromZTK vr mem sl d = Some None.
Proof. exact nuf_few. Qed.
Print Assumptions C90_few.
(** control points before the size *)
Theorem C90_early : forall vr mem sl a b d1 c d2, Forall (good_line vr a b) d1 -> ~ List.In "size" (map fst d1) -> ~ List.In "cp" (map fst d1) -> zNURBS3DFromZTK vr mem sl (d1 ++ cp_line c :: d2) = Some None.
Proof. exact nuf_early. Qed.
Print Assumptions C90_early.
(** control points outside of the net *)
Theorem C90_beyond : forall vr mem sl d1 a b d2 c d3, Forall (good_line vr a b) (d1 ++ ("size", [TInt a; TInt b]) :: d2) -> ~ List.In "size" (map fst d1) -> ~ List.In "cp" (map fst d1) -> (0 < a)%Z -> (0 < b)%Z ->
  ~ ((0 <= cli c < a)%Z /\ (0 <= clj c < b)%Z) -> zNURBS3DFromZTK vr mem sl (d1 ++ ("size", [TInt a; TInt b]) :: d2 ++ cp_line c :: d3) = Some None.
Proof. exact nuf_beyond. Qed.
Print Assumptions C90_beyond.
(** knots of an axis missing *)
Theorem C90_missing : forall vr mem sl d n, ~ List.In "uknot" (map fst d) \/ ~ List.In "vknot" (map fst d) -> zNURBS3DFromZTK vr mem sl d <> Some (Some n).
Proof. exact nuf_missing. Qed.
Print Assumptions C90_missing.
(** without a size an empty net is accepted *)
Theorem C90_nosize_refuted : forall vr mem sl a b d v0 v1 ks0 ks1, Forall (good_line vr a b) d -> ~ List.In "size" (map fst d) -> ~ List.In "cp" (map fst d) -> first_line "uknot" v0 d -> vr v0 = Some ks0 -> first_line "vknot" v1 d -> vr v1 = Some ks1 -> (1 < length ks0)%nat -> (1 < length ks1)%nat ->
  exists n, zNURBS3DFromZTK vr mem sl d = Some (Some n) /\ nu_n0 n = 0%nat /\ nu_n1 n = 0%nat /\ forall seg u v, zNURBS3DVec seg n u v = None.
Proof. exact nuf_nosize. Qed.
Print Assumptions C90_nosize_refuted.
(** curves are written but not read *)
Theorem C90_curve_refuted : forall vp vr mem sl size order slice, (forall ks, ks <> [] -> vr (vp ks) = Some ks) -> (order < size)%nat ->
  exists n, zNURBS3DAlloc 1 size 0 order slice = Some n /\ zNURBS3DFromZTK vr mem sl (zNURBS3DFPrintZTK vp n) = Some None.
Proof. exact nuf_curve. Qed.
Print Assumptions C90_curve_refuted.
(** a way to write and read knots: their number, then the knots *)
Definition vp1 (ks : list R) : list tok := TInt (Z.of_nat (length ks)) :: map TNum ks.
Definition vr1 (v : list tok) : option (list R) := match v with TInt n :: r => if Z.leb n 0 then None else Some (fst (ZTKDoubles (Z.to_nat n) r)) | _ => None end.
Example C90_ex_knots : forall ks, ks <> [] -> vr1 (vp1 ks) = Some ks.
Proof.
  intros ks H. unfold vr1, vp1. replace (Z.leb (Z.of_nat (length ks)) 0) with false by (symmetry; apply Z.leb_gt; destruct ks; [congruence|cbn [length]; Lia.lia]). rewrite Nat2Z.id. f_equal. clear H.
  induction ks as [|k ks IH]; [reflexivity|]. cbn [length map ZTKDoubles ZTKDouble tok_num]. destruct (ZTKDoubles (length ks) (map TNum ks)) eqn:E. cbn [fst] in *. rewrite IH. reflexivity.
Qed.
(** a patch of two times two control points, degrees 1 *)
Definition patch : nurbs := NU (BS 1 [0; 0; 1; 1] 10) (BS 1 [0; 0; 2; 2] 20) 2 2 (fun i j => CPC (V3 (INR i) (INR j) 0) (1 + INR i)).
Example C90_ex_storable : storable patch.
Proof. unfold storable, patch. cbn. repeat split; Lia.lia. Qed.
(** a file in another order, with an unknown key, a second size and a second line for a control point *)
Definition file1 : sect := [("slice", [TInt 3; TInt 4]); ("comment", [TWord "x"]); ("vknot", vp1 [0; 0; 1; 1])] ++ ("size", [TInt 1; TInt 2]) ::
  [cp_line (CL 0 0 (CPC (V3 1 2 3) 1) true); ("uknot", vp1 [0; 0; 1]); ("size", [TInt 5; TInt 5]); cp_line (CL 0 0 (CPC (V3 4 5 6) 7) false)].
Example C90_ex_read : Forall (good_line vr1 1 2) file1 /\ first_line "uknot" (vp1 [0; 0; 1]) file1 /\ first_line "vknot" (vp1 [0; 0; 1; 1]) file1 /\ first_line "slice" [TInt 3; TInt 4] file1 /\
  last_cp [cp_line (CL 0 0 (CPC (V3 1 2 3) 1) true); ("uknot", vp1 [0; 0; 1]); ("size", [TInt 5; TInt 5]); cp_line (CL 0 0 (CPC (V3 4 5 6) 7) false)] 0 0 (CL 0 0 (CPC (V3 4 5 6) 7) false) /\
  no_cp [cp_line (CL 0 0 (CPC (V3 1 2 3) 1) true); ("uknot", vp1 [0; 0; 1]); ("size", [TInt 5; TInt 5]); cp_line (CL 0 0 (CPC (V3 4 5 6) 7) false)] 0 1.
Proof.
  assert (CP : forall c, (0 <= cli c < 1)%Z -> (0 <= clj c < 2)%Z -> good_line vr1 1 2 (cp_line c)). { intros c I J. unfold good_line. change (fst (cp_line c)) with "cp". split; [intros [X|X]; discriminate|]. split; [discriminate|]. split; [discriminate|]. intros _. exists c. split; [reflexivity|]. split; assumption. }
  split; [|split; [|split; [|split; [|split]]]].
  - unfold file1. cbn [app]. repeat (apply Forall_cons); [| | | |apply CP; cbn; Lia.lia| | |apply CP; cbn; Lia.lia|constructor]; unfold good_line; cbn [fst snd];
    (split; [first [intros [X|X]; discriminate|intros _; eexists; apply C90_ex_knots; discriminate]|]; split; [first [discriminate|intros _; eexists; eexists; split; [reflexivity|Lia.lia]]|]; split; [first [discriminate|intros _; eexists; eexists; split; [reflexivity|Lia.lia]]|discriminate]).
  - eexists [_; _; _; _; _], _. split; [reflexivity|]. cbn. intros [X|[X|[X|[X|[X|[]]]]]]; discriminate.
  - eexists [_; _], _. split; [reflexivity|]. cbn. intros [X|[X|[]]]; discriminate.
  - eexists [], _. split; [reflexivity|]. intros [].
  - eexists [_; _; _], []. split; [reflexivity|]. split; [split; reflexivity|]. intros c [].
  - intros c H (_ & A). cbn in H. destruct H as [H|[H|[H|[H|[]]]]]; try discriminate; assert (Y : nth 1 (snd (cp_line c)) (TInt 0) = TInt 0) by (change (snd (cp_line c)) with (snd (cp_line c)); unfold cp_line; cbn; injection H; intros; congruence); unfold cp_line in Y; cbn in Y; injection Y; intros; congruence.
Qed.
(** a file without size *)
Example C90_ex_nosize : Forall (good_line vr1 0 0) [("uknot", vp1 [0; 1]); ("vknot", vp1 [0; 1])] /\ ~ List.In "size" ["uknot"; "vknot"] /\ ~ List.In "cp" ["uknot"; "vknot"].
Proof.
  split; [|split; intros [X|[X|[]]]; discriminate]. repeat (apply Forall_cons); [| |constructor]; unfold good_line; cbn [fst snd];
  (split; [intros _; eexists; apply C90_ex_knots; discriminate|]; split; [discriminate|]; split; discriminate).
Qed.

(** OBJ files. *)
From Coq Require Import Ascii String List ZArith Lia Lra Reals.
From Verif Require Import Base SpecObj ModelObj FactsStl FactsPly FactsPly2 FactsPly3 FactsPly4.
Import ListNotations.
Open Scope list_scope.
Open Scope R_scope.

Lemma digit_of d : (d < 10)%nat -> digitOf (digit_text d) = Some (Z.of_nat d).
Proof. intros H. do 10 (destruct d as [|d]; [reflexivity|]). lia. Qed.
Lemma digit_plain d : (d < 10)%nat -> Ascii.eqb (digit_text d) "/" = false /\ Ascii.eqb (digit_text d) "-" = false /\ Ascii.eqb (digit_text d) "+" = false.
Proof. intros H. do 10 (destruct d as [|d]; [repeat split|]). lia. Qed.
Lemma atoi_digits ds : Forall (fun d => (d < 10)%nat) ds -> forall acc, atoiDigits (digits_text ds) acc = fold_left (fun a d => (10 * a + Z.of_nat d)%Z) ds acc.
Proof. induction 1 as [|d ds H F IH]; intros acc; cbn [digits_text atoiDigits fold_left]; [reflexivity|]. rewrite (digit_of d H). apply IH. Qed.
Lemma before_digits ds b : Forall (fun d => (d < 10)%nat) ds -> (b = ""%string \/ exists r, b = String "/" r) -> beforeSlash (digits_text ds ++ b) = digits_text ds.
Proof.
  intros F B. induction F as [|d ds H F IH]; cbn [digits_text append].
  - destruct B as [->|[r ->]]; reflexivity.
  - cbn [beforeSlash]. destruct (digit_plain d H) as (-> & _). rewrite IH. reflexivity.
Qed.
Lemma index_corner w n : obj_corner w n -> zOBJFReadFaceIndex w = (n - 1)%Z.
Proof.
  intros (a & b & -> & N & B). unfold zOBJFReadFaceIndex. destruct N as [ds [NE F]|ds [NE F]].
  - rewrite (before_digits ds b F B). destruct ds as [|d ds]; [congruence|]. cbn [digits_text]. inversion F as [|? ? H F']; subst.
    unfold atoi. destruct (digit_plain d H) as (_ & -> & ->). change (String (digit_text d) (digits_text ds)) with (digits_text (d :: ds)). rewrite atoi_digits by exact F. reflexivity.
  - cbn [append beforeSlash]. change (Ascii.eqb "-" "/") with false. cbv iota. rewrite (before_digits ds b F B). unfold atoi.
    change (Ascii.eqb "-" "-") with true. cbv iota. rewrite atoi_digits by exact F. reflexivity.
Qed.

Lemma put_at {A} (a : list A) x y b : putAt (a ++ x :: b) (length a) y = Some (a ++ y :: b).
Proof. induction a as [|z a IH]; cbn [app length putAt]; [reflexivity|]. rewrite IH. reflexivity. Qed.
Lemma count_vert ls : zOBJCountVert ls = length (obj_vertices ls).
Proof. unfold zOBJCountVert, obj_vertices. induction ls as [|[xs|ws|] ls IH]; cbn [filter flat_map length app]; auto. Qed.

Lemma corner_nth ws l : Forall2 (fun w i => obj_corner w (Z.of_nat i + 1)) ws l -> forall k, zOBJFReadFaceIndex (nth k ws ""%string) = Z.of_nat (nth k l 0%nat).
Proof.
  induction 1 as [|w i ws l C F IH]; intros k; destruct k as [|k]; cbn [nth]; try reflexivity.
  - rewrite (index_corner _ _ C). lia.
  - apply IH.
Qed.
Definition three_below (n : nat) (t : nat * nat * nat) : Prop := let '(i, j, k) := t in (i < n)%nat /\ (j < n)%nat /\ (k < n)%nat.
Lemma read_face ws l vs : Forall2 (fun w i => obj_corner w (Z.of_nat i + 1)) ws l -> three_below (length vs) (first_three l) ->
  zOBJFReadFace ws vs = Some (tri_face vs (first_three l)).
Proof. intros F (A & B & C). unfold zOBJFReadFace. rewrite !(corner_nth _ _ F). apply make_face; assumption. Qed.

(** running over the lines: [d] are the vertices read, [J] is what memory held *)
Lemma obj_run ls ps : obj_polygons ls ps -> forall d J fs nf, (length d + length (obj_vertices ls) = length J)%nat -> (length fs + length ps <= nf)%nat ->
  Forall (fun l => three_below (length J) (first_three l)) ps ->
  exists gs, zOBJFReadPH3D ls nf (d ++ skipn (length d) J) (length d) fs = Some (PH (d ++ obj_vertices ls) (fs ++ gs)) /\
  map (fun f => (fi0 f, fi1 f, fi2 f)) gs = map first_three ps /\
  (declared (length d) ls -> Forall (fun f => exists t, triangle_of (d ++ obj_vertices ls) (fst (face_key f)) t /\ normal_of t (snd (face_key f))) gs).
Proof.
  induction 1 as [|ws l ls ps F P IH|xs ls ps P IH|ls ps P IH]; intros d J fs nf L N B.
  - cbn [obj_vertices flat_map length] in L |- *. exists []. cbn [zOBJFReadPH3D]. rewrite skipn_all2 by lia. rewrite !app_nil_r. repeat split; auto.
  - cbn [length] in N. inversion B as [|? ? B1 B2]; subst. change (obj_vertices (LFace ws :: ls)) with (obj_vertices ls) in *.
    assert (LJ : length (d ++ skipn (length d) J) = length J) by (rewrite app_length, skipn_length; lia).
    cbn [zOBJFReadPH3D]. rewrite (read_face ws l _ F) by (rewrite LJ; exact B1). destruct (Nat.ltb_spec (length fs) nf) as [_|W]; [|lia].
    destruct (IH d J (fs ++ [tri_face (d ++ skipn (length d) J) (first_three l)]) nf L) as (gs & E & I & DC); [rewrite app_length; cbn [length]; lia|exact B2|].
    exists (tri_face (d ++ skipn (length d) J) (first_three l) :: gs). split; [rewrite E, <- app_assoc; reflexivity|]. split.
    + cbn [map]. rewrite I. f_equal.
    + intros D. inversion D as [|? ? l' ? F' N0 IN D'| |]; subst. constructor; [|apply DC; exact D'].
      assert (EQ : l' = l). { clear - F F'. revert l' F'. induction F as [|w i ws l C F IH]; intros l' F'; inversion F' as [|? i' ? l2 C' F2]; subst; [reflexivity|]. f_equal; [|apply IH; exact F2].
        assert (Q := index_corner _ _ C). rewrite (index_corner _ _ C') in Q. lia. }
      subst l'. assert (NB : forall k, (nth k l 0 < length d)%nat) by (intros k; destruct (Nat.lt_ge_cases k (length l)) as [K|K]; [apply IN, nth_In; exact K|rewrite nth_overflow by exact K; exact N0]).
      assert (NT : forall k x, (nth k l 0%nat < length d)%nat -> nth (nth k l 0%nat) (d ++ skipn (length d) J) x = nth (nth k l 0%nat) (d ++ obj_vertices ls) x) by (intros k x K; rewrite !app_nth1 by exact K; reflexivity).
      unfold face_key, tri_face, first_three. cbn [fi0 fi1 fi2 fnrm fst snd]. eexists. split; [|apply normal_created]. rewrite !NT by apply NB. cbn [triangle_of].
      repeat split; apply nth_error_nth'; rewrite app_length; specialize (NB 0%nat) as NB0; specialize (NB 1%nat) as NB1; specialize (NB 2%nat) as NB2; lia.
  - change (obj_vertices (LVert xs :: ls)) with (vert_of xs :: obj_vertices ls) in *. cbn [length] in L.
    cbn [zOBJFReadPH3D]. unfold zOBJFReadVert.
    destruct (skipn (length d) J) as [|j J'] eqn:SJ; [assert (W : length (skipn (length d) J) = 0%nat) by (rewrite SJ; reflexivity); rewrite skipn_length in W; lia|].
    rewrite put_at.
    destruct (IH (d ++ [vert_of xs]) J fs nf) as (gs & E & I & DC); [rewrite app_length; cbn [length]; lia|exact N|exact B|].
    exists gs.
    assert (ED : (d ++ [vert_of xs]) ++ skipn (length (d ++ [vert_of xs])) J = d ++ V3 (nth 0 xs 0) (nth 1 xs 0) (nth 2 xs 0) :: J').
    { rewrite <- app_assoc. cbn [app]. f_equal. unfold vert_of. f_equal. rewrite app_length. cbn [length].
      assert (Q : forall m, skipn (m + 1) J = skipn 1 (skipn m J)) by (clear; intros m; revert J; induction m as [|m IH]; intros J; [reflexivity|]; destruct J as [|a J]; [reflexivity|apply IH]). rewrite Q, SJ. reflexivity. }
    rewrite ED in E. replace (length (d ++ [vert_of xs])) with (Datatypes.S (length d)) in E, DC by (rewrite app_length; cbn [length]; lia).
    rewrite <- app_assoc in E, DC. cbn [app] in E, DC. split; [exact E|]. split; [exact I|]. intros D. inversion D; subst. apply DC. assumption.
  - change (obj_vertices (LOther :: ls)) with (obj_vertices ls) in *. cbn [zOBJFReadPH3D].
    destruct (IH d J fs nf L N B) as (gs & E & I & DC). exists gs. split; [exact E|]. split; [exact I|]. intros D. inversion D; subst. apply DC. assumption.
Qed.
Lemma count_face ls ps : obj_polygons ls ps -> zOBJCountFace ls = length ps.
Proof. unfold zOBJCountFace. induction 1; cbn [filter length]; auto. Qed.

Lemma obj_general : forall junk ls ps, obj_polygons ls ps -> (forall l, List.In l ps -> let '(i, j, k) := first_three l in (i < length (obj_vertices ls))%nat /\ (j < length (obj_vertices ls))%nat /\ (k < length (obj_vertices ls))%nat) ->
  exists fs, zPH3DFReadOBJ junk ls = Some (PH (obj_vertices ls) fs) /\ map fst (map face_key fs) = map first_three ps /\
  (declared 0 ls -> faces_are (obj_vertices ls) (map face_key fs) (map first_three ps)).
Proof.
  intros junk ls ps P B. unfold zPH3DFReadOBJ. rewrite (count_face _ _ P), count_vert.
  destruct (obj_run ls ps P [] (repeat junk (length (obj_vertices ls))) [] (length ps)) as (gs & E & I & DC).
  - rewrite repeat_length. reflexivity.
  - cbn [length]. lia.
  - rewrite repeat_length. apply Forall_forall. intros l J. specialize (B l J). unfold three_below. exact B.
  - exists gs. split; [exact E|]. rewrite map_map. split; [exact I|]. intros D. specialize (DC D). split; [rewrite map_map; exact I|].
    apply Forall_forall. intros f J. apply in_map_iff in J. destruct J as (g & <- & J). rewrite Forall_forall in DC. exact (DC g J).
Qed.
Lemma obj_triangles : forall junk ls ps, obj_polygons ls ps -> declared 0 ls -> (forall l, List.In l ps -> length l = 3%nat) ->
  exists fs, zPH3DFReadOBJ junk ls = Some (PH (obj_vertices ls) fs) /\ faces_are (obj_vertices ls) (map face_key fs) (flat_map fan ps).
Proof.
  intros junk ls ps P D T.
  assert (G : forall n, declared n ls -> forall l i, List.In l ps -> List.In i l -> (i < n + length (obj_vertices ls))%nat).
  { clear - P. induction P as [|ws l ls ps F P IH|xs ls ps P IH|ls ps P IH]; intros n D l' i I J.
    - destruct I.
    - inversion D as [|? ? l2 ? F' N0 IN D'| |]; subst. assert (EQ : l2 = l). { clear - F F'. revert l2 F'. induction F as [|w i ws l C F IH]; intros l' F'; inversion F' as [|? i' ? l2 C' F2]; subst; [reflexivity|]. f_equal; [|apply IH; exact F2].
        assert (Q := index_corner _ _ C). rewrite (index_corner _ _ C') in Q. lia. }
      subst l2. change (obj_vertices (LFace ws :: ls)) with (obj_vertices ls). destruct I as [<-|I]; [specialize (IN i J); lia|apply (IH n D' l' i I J)].
    - inversion D; subst. change (obj_vertices (LVert xs :: ls)) with (vert_of xs :: obj_vertices ls). cbn [length]. specialize (IH (Datatypes.S n) ltac:(assumption) l' i I J). lia.
    - inversion D; subst. apply (IH n ltac:(assumption) l' i I J). }
  destruct (obj_general junk ls ps P) as (fs & E & I & DC).
  - intros l J. specialize (T l J). specialize (G 0%nat D l). destruct l as [|a [|b [|c [|e r]]]]; try discriminate T. cbn. repeat split; apply G; auto; cbn; auto.
  - exists fs. split; [exact E|]. replace (flat_map fan ps) with (map first_three ps); [exact (DC D)|]. clear - T. induction ps as [|l ps IH]; [reflexivity|]. cbn [map flat_map]. rewrite IH by (intros l' J; apply T; right; exact J).
    specialize (T l (or_introl eq_refl)). destruct l as [|a [|b [|c [|e r]]]]; try discriminate T. reflexivity.
Qed.

(** a number of no vertex *)
Lemma obj_beyond : forall junk ls ws k w n, List.In (LFace ws) ls -> (k < 3)%nat -> nth_error ws k = Some w -> obj_corner w n -> (n < 1 \/ Z.of_nat (length (obj_vertices ls)) < n)%Z ->
  zPH3DFReadOBJ junk ls = None.
Proof.
  intros junk ls ws k w n I K W C B. unfold zPH3DFReadOBJ. rewrite count_vert.
  assert (X : zOBJFReadFaceIndex (nth k ws ""%string) = (n - 1)%Z) by (rewrite (nth_error_nth _ _ _ W); apply index_corner; exact C).
  assert (BAD : forall vs, length vs = length (obj_vertices ls) -> zOBJFReadFace ws vs = None).
  { intros vs L. unfold zOBJFReadFace, makeFace.
    destruct k as [|[|[|k]]]; try lia; rewrite X; destruct (Z.ltb_spec (n - 1) 0) as [NG|NG]; rewrite ?Bool.orb_true_r; try reflexivity;
      (destruct (_ || _)%bool; [reflexivity|]);
      (assert (NE : nth_error vs (Z.to_nat (n - 1)) = None) by (apply nth_error_None; lia)); rewrite NE; repeat (destruct (nth_error vs _); try reflexivity). }
  assert (G : forall todo vs vi fs nf, length vs = length (obj_vertices ls) -> List.In (LFace ws) todo -> zOBJFReadPH3D todo nf vs vi fs = None); [|apply G; [apply repeat_length|exact I]].
  intros todo. induction todo as [|[xs|ws'|] todo IH]; intros vs vi fs nf L J; cbn [zOBJFReadPH3D].
  - destruct J.
  - destruct (zOBJFReadVert xs vs vi) as [vs'|] eqn:E; [|reflexivity]. apply IH; [|destruct J as [J|J]; [discriminate J|exact J]].
    rewrite <- L. clear - E. unfold zOBJFReadVert in E. revert vi vs' E. induction vs as [|v vs IH]; intros [|vi] vs' E; cbn [putAt] in E; try discriminate E.
    + injection E as <-. reflexivity.
    + destruct (putAt vs vi _) as [r|] eqn:Q; [|discriminate E]. injection E as <-. cbn [length]. f_equal. eapply IH. exact Q.
  - destruct J as [J|J]; [injection J as ->; rewrite (BAD vs L); reflexivity|].
    destruct (zOBJFReadFace ws' vs) as [f|]; [|reflexivity]. destruct (Nat.ltb (length fs) nf); [|reflexivity]. apply IH; assumption.
  - apply IH; [exact L|]. destruct J as [J|J]; [discriminate J|exact J].
Qed.

Definition o3 : list obj_line := [LVert [0; 0; 0]; LVert [1; 0; 0]; LVert [0; 1; 0]].
Lemma corner_digit d : (d < 10)%nat -> obj_corner (digits_text [d]) (Z.of_nat d).
Proof.
  intros H. exists (digits_text [d]), ""%string. split; [reflexivity|]. split; [|left; reflexivity].
  replace (Z.of_nat d) with (digits_value [d]) by (unfold digits_value; cbn [fold_left]; lia). constructor. split; [discriminate|]. constructor; [exact H|constructor].
Qed.
(** faces before their vertices: on memory filled with zeros the normal is zero *)
Lemma obj_order_refuted : exists ls ps fs, obj_polygons ls ps /\ ps = [[0; 1; 2]%nat] /\ obj_vertices ls = [V3 0 0 0; V3 1 0 0; V3 0 1 0] /\
  zPH3DFReadOBJ (V3 0 0 0) ls = Some (PH (obj_vertices ls) fs) /\ map face_key fs = [((0, 1, 2)%nat, V3 0 0 0)] /\ ~ normal_of (V3 0 0 0, V3 1 0 0, V3 0 1 0) (V3 0 0 0).
Proof.
  exists (LFace ["1"; "2"; "3"]%string :: o3), [[0; 1; 2]%nat].
  assert (P : obj_polygons (LFace ["1"; "2"; "3"]%string :: o3) [[0; 1; 2]%nat]).
  { constructor; [|repeat constructor]. constructor; [apply (corner_digit 1); lia|]. constructor; [apply (corner_digit 2); lia|]. constructor; [apply (corner_digit 3); lia|constructor]. }
  exists [FC 0 1 2 (V3 0 0 0)]. split; [exact P|]. split; [reflexivity|]. split; [reflexivity|].
  assert (NZ : tnorm (snd (zTri3DCreate (V3 0 0 0) (V3 0 0 0) (V3 0 0 0))) = V3 0 0 0).
  { destruct (normal_created (V3 0 0 0) (V3 0 0 0) (V3 0 0 0)) as [A _]. rewrite A.
    - unfold tri_normal, cross, vsub. apply vec3_ext; cbn [vx vy vz]; ring.
    - unfold negligible. assert (Q : tri_normal (V3 0 0 0) (V3 0 0 0) (V3 0 0 0) = V3 0 0 0) by (unfold tri_normal, cross, vsub; apply vec3_ext; cbn [vx vy vz]; ring). rewrite Q. cbn [vx vy vz].
      rewrite Rabs_R0. repeat split; apply zTOL_pos. }
  split.
  - unfold zPH3DFReadOBJ. change (zOBJCountFace (LFace ["1"%string; "2"%string; "3"%string] :: o3)) with 1%nat. change (zOBJCountVert (LFace ["1"%string; "2"%string; "3"%string] :: o3)) with 3%nat.
    cbn [repeat zOBJFReadPH3D]. replace (zOBJFReadFace ["1"%string; "2"%string; "3"%string] [V3 0 0 0; V3 0 0 0; V3 0 0 0]) with (Some (FC 0 1 2 (tnorm (snd (zTri3DCreate (V3 0 0 0) (V3 0 0 0) (V3 0 0 0)))))) by reflexivity.
    rewrite NZ. reflexivity.
  - split; [reflexivity|]. intros [_ N]. assert (Q : tri_normal (V3 0 0 0) (V3 1 0 0) (V3 0 1 0) = V3 0 0 1) by (unfold tri_normal, cross, vsub; apply vec3_ext; cbn [vx vy vz]; ring).
    rewrite Q in N.
    assert (NN : ~ negligible (V3 0 0 1)) by (unfold negligible; cbn [vx vy vz]; rewrite Rabs_R1; intros (_ & _ & H1); assert (Z1 := zTOL_small); lra).
    destruct (N NN) as [A _]. unfold norm, dot in A. cbn [vx vy vz] in A. replace (0 * 0 + 0 * 0 + 0 * 0) with 0 in A by ring. rewrite sqrt_0 in A. lra.
Qed.
(** a face of four corners loses one of its triangles *)
Lemma obj_square_refuted : forall junk, exists ls ps ph p, obj_polygons ls ps /\ declared 0 ls /\ ps = [[0; 1; 2; 3]%nat] /\ obj_vertices ls = [V3 0 0 0; V3 1 0 0; V3 1 1 0; V3 0 1 0] /\
  zPH3DFReadOBJ junk ls = Some ph /\ in_triangle (V3 0 0 0) (V3 1 1 0) (V3 0 1 0) p /\
  forall f a b d, List.In f (ph_faces ph) -> triangle_of (pverts ph) f (a, b, d) -> ~ in_triangle a b d p.
Proof.
  intros junk. exists [LVert [0; 0; 0]; LVert [1; 0; 0]; LVert [1; 1; 0]; LVert [0; 1; 0]; LFace ["1"; "2"; "3"; "4"]%string], [[0; 1; 2; 3]%nat].
  assert (F : Forall2 (fun w i => obj_corner w (Z.of_nat i + 1)) ["1"; "2"; "3"; "4"]%string [0; 1; 2; 3]%nat).
  { constructor; [apply (corner_digit 1); lia|]. constructor; [apply (corner_digit 2); lia|]. constructor; [apply (corner_digit 3); lia|]. constructor; [apply (corner_digit 4); lia|constructor]. }
  assert (P : obj_polygons [LVert [0; 0; 0]; LVert [1; 0; 0]; LVert [1; 1; 0]; LVert [0; 1; 0]; LFace ["1"; "2"; "3"; "4"]%string] [[0; 1; 2; 3]%nat]) by (do 4 constructor; constructor; [exact F|constructor]).
  destruct (obj_general junk _ _ P) as (fs & E & I & _). { intros l [<-|[]]. cbn. lia. }
  eexists. exists (V3 (1/2) (3/4) 0). split; [exact P|]. split.
  - do 4 constructor. econstructor; [exact F|lia| |constructor]. intros i J. cbn in J. lia.
  - split; [reflexivity|]. split; [reflexivity|]. split; [exact E|]. split.
    + exists (1/4), (1/2), (1/4). split; [unfold weights3; lra|]. apply vec3_ext; unfold comb3, comb2, vscale, vadd; cbn [vx vy vz]; lra.
    + assert (Q : ph_faces (PH square_points fs) = [(0, 1, 2)]%nat) by (transitivity (map fst (map face_key fs)); [rewrite map_map; reflexivity|exact I]).
      intros f a b d J T. cbn [pverts] in T. unfold ph_faces in *. cbn [pfaces] in *. rewrite Q in J. destruct J as [<-|[]]; cbn in T; destruct T as (A & B & D); injection A as <-; injection B as <-; injection D as <-;
        intros (s0 & s1 & s2 & W & PP); unfold weights3 in W; unfold comb3, comb2, vscale, vadd in PP; cbn [vx vy vz] in PP; injection PP as P1 P2 P3; lra.
Qed.

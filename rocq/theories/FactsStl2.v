(** Facts on STL files: texts and binary files. *)
From Coq Require Import Lra Lia Permutation.
From Verif Require Import Base Spec SpecFile ModelVec ModelElem ModelPH ModelTree ModelStl FactsStl.
Open Scope R_scope.

Definition tri_of (t : tri3) : tri := (tv0 t, tv1 t, tv2 t).
Lemma tris_soup vs fs ts : soup vs (map (fun f => (fi0 f, fi1 f, fi2 f)) fs) ts -> exists us, mapM (zPH3DFaceTri (PH vs fs)) fs = Some us /\ map tri_of us = ts.
Proof.
  unfold soup. assert (G : forall gs, Forall2 (fun t f => triangle_of vs f t) ts (map (fun f => (fi0 f, fi1 f, fi2 f)) gs) -> exists us, mapM (zPH3DFaceTri (PH vs fs)) gs = Some us /\ map tri_of us = ts); [|apply G].
  intros gs. revert ts. induction gs as [|g gs IH]; intros ts H; cbn [map] in H; inversion H as [|[[a b] c] f ts' fs' H1 H2 E1 E2]; subst.
  - exists []. auto.
  - destruct (IH _ H2) as (us & Eu & Mu). cbn [triangle_of] in H1. destruct H1 as (A & B & C). exists (T3 a b c (fnrm g) :: us).
    cbn [mapM]. unfold zPH3DFaceTri at 1. cbn [pverts]. rewrite A, B, C, Eu. cbn [map]. rewrite Mu. auto.
Qed.
Lemma tris_ph ph ts : soup (pverts ph) (ph_faces ph) ts -> exists us, zPH3DTris ph = Some us /\ map tri_of us = ts.
Proof. intros H. destruct ph as [vs fs]. apply tris_soup in H. exact H. Qed.

(** ** text *)
Definition printed (pr : R -> R) (us : list tri3) : list tri := map (fun t => each3 (each pr) (tri_of t)) us.
Lemma read_face k junk pr t rest fl vt : zPH3DFReadSTL_ASCIIfacet (6 + k) junk (tl (printFace pr t) ++ rest) (None, None, None) fl vt =
  match zSTLFacetListReg junk fl vt (each3 (each pr) (tri_of t)) with Some (fl, vt) => Got (Some (fl, vt, rest)) | None => Undef end.
Proof. reflexivity. Qed.
Lemma face_head pr t : printFace pr t = TW "facet" :: tl (printFace pr t). Proof. reflexivity. Qed.
Lemma skip_words junk : forall more s fuel fl vt, Forall plain_word more -> stlSolid (length more + fuel) junk (more ++ s) fl vt = stlSolid fuel junk s fl vt.
Proof.
  induction more as [|w more IH]; intros s fuel fl vt H; [reflexivity|]. inversion H as [|? ? [A B] H']; subst. cbn [length app Nat.add stlSolid].
  assert (E1 : is_word w "endsolid" = false) by (destruct w as [u|]; [cbn; apply String.eqb_neq; congruence|reflexivity]).
  assert (E2 : is_word w "facet" = false) by (destruct w as [u|]; [cbn; apply String.eqb_neq; congruence|reflexivity]).
  rewrite E1, E2. apply IH; assumption.
Qed.
Lemma read_faces junk pr : forall us fuel fl vt, (length us + 7 <= fuel)%nat -> stlSolid fuel junk (flat_map (printFace pr) us ++ [TW "endsolid"]) fl vt =
  match regs junk fl vt (printed pr us) with Some (fl, vt) => Got (zSTLToPH3D vt fl) | None => Undef end.
Proof.
  induction us as [|u us IH]; intros fuel fl vt F.
  - destruct fuel as [|fuel]; [cbn in F; lia|]. reflexivity.
  - cbn [flat_map]. rewrite <- app_assoc, face_head. destruct fuel as [|fuel]; [cbn in F; lia|]. cbn [app stlSolid].
    replace (is_word (TW "facet") "endsolid") with false by reflexivity. replace (is_word (TW "facet") "facet") with true by reflexivity.
    assert (exists k, fuel = (6 + k)%nat) as [k ->] by (exists (fuel - 6)%nat; cbn in F; lia). rewrite read_face.
    unfold printed. cbn [map]. fold (printed pr us). cbn [regs]. destruct (zSTLFacetListReg junk fl vt (each3 (each pr) (tri_of u))) as [[fl' vt']|]; [|reflexivity].
    apply IH. cbn in F. lia.
Qed.
Lemma face_len pr u : length (printFace pr u) = 21%nat. Proof. reflexivity. Qed.
Lemma faces_len pr us : length (flat_map (printFace pr) us) = (21 * length us)%nat.
Proof. induction us as [|u us IH]; [reflexivity|]. cbn [flat_map]. rewrite app_length, IH, face_len. cbn [length]. lia. Qed.
Lemma printed_tri pr us : printed pr us = map (each3 (each pr)) (map tri_of us).
Proof. unfold printed. now rewrite map_map. Qed.

Lemma stl_text pr junk ph ts w more : soup (pverts ph) (ph_faces ph) ts -> ts <> [] -> Forall plain_word more ->
  (forall v j, first_corner (map (each3 (each pr)) ts) v -> junk = Some j -> ~ about zTOL v j) ->
  exists text ph', zPH3DFWriteSTL_ASCII pr ph (w :: more) = Some text /\
    (forall fuel, (length text < fuel)%nat -> zPH3DFReadSTL_ASCII fuel junk text = Got (Some ph', Some w)) /\
    welded zTOL (map (each3 (each pr)) ts) (pverts ph') (map face_key (pfaces ph')).
Proof.
  intros S N P J. destruct (tris_ph ph ts S) as (us & E & M). unfold zPH3DFWriteSTL_ASCII. rewrite E. eexists.
  destruct (regs_all junk (map (each3 (each pr)) ts)) as (fl & vt & ph' & R1 & R2 & W); [destruct ts; [congruence|discriminate]|assumption|].
  exists ph'. split; [reflexivity|]. split; [|exact W]. intros fuel F. destruct fuel as [|fuel]; [lia|]. cbn [app zPH3DFReadSTL_ASCII].
  replace (is_word (TW "solid") "solid") with true by reflexivity. cbn [app zPH3DFReadSTL_ASCIIsolid].
  cbn [app length] in F. rewrite !app_length, faces_len in F. cbn [length] in F. destruct us as [|u us]; [subst ts; cbn in N; congruence|]. cbn [length] in F.
  assert (exists k, fuel = (length more + k)%nat /\ (length (u :: us) + 7 <= k)%nat) as (k & -> & K) by (exists (fuel - length more)%nat; cbn [length]; lia).
  rewrite skip_words by assumption. rewrite read_faces by assumption. rewrite printed_tri, M, R1. now rewrite R2.
Qed.
(** without a name the first facet is taken for one *)
Lemma stl_unnamed pr junk ph t ts : soup (pverts ph) (ph_faces ph) (t :: ts) -> ts <> [] ->
  (forall v j, first_corner (map (each3 (each pr)) ts) v -> junk = Some j -> ~ about zTOL v j) ->
  exists text ph', zPH3DFWriteSTL_ASCII pr ph [] = Some text /\
    (forall fuel, (length text < fuel)%nat -> zPH3DFReadSTL_ASCII fuel junk text = Got (Some ph', Some (TW "facet"))) /\
    welded zTOL (map (each3 (each pr)) ts) (pverts ph') (map face_key (pfaces ph')).
Proof.
  intros S N J. destruct (tris_ph ph (t :: ts) S) as (us & E & M). unfold zPH3DFWriteSTL_ASCII. rewrite E. eexists.
  destruct (regs_all junk (map (each3 (each pr)) ts)) as (fl & vt & ph' & R1 & R2 & W); [destruct ts; [congruence|discriminate]|assumption|].
  exists ph'. split; [reflexivity|]. split; [|exact W]. intros fuel F. destruct fuel as [|fuel]; [lia|]. cbn [app zPH3DFReadSTL_ASCII].
  replace (is_word (TW "solid") "solid") with true by reflexivity. destruct us as [|u us]; [discriminate|]. cbn [map] in M. injection M as _ M.
  cbn [app length] in F. rewrite !app_length, faces_len in F. cbn [length] in F. cbn [flat_map]. rewrite face_head. cbn [app zPH3DFReadSTL_ASCIIsolid].
  assert (P : Forall plain_word (tl (printFace pr u))) by (cbn; repeat constructor; discriminate).
  assert (exists k, fuel = (length (tl (printFace pr u)) + k)%nat /\ (length us + 7 <= k)%nat) as (k & -> & K).
  { exists (fuel - 20)%nat. change (length (tl (printFace pr u))) with 20%nat. assert (length us <> 0)%nat by (destruct us; [subst ts; cbn in N; congruence|discriminate]). lia. }
  rewrite <- app_assoc. rewrite skip_words by assumption. rewrite read_faces by assumption. rewrite printed_tri, M, R1. now rewrite R2.
Qed.
(** nothing at all is read from a polyhedron without faces *)
Lemma stl_text_empty pr junk ph name : pfaces ph = [] -> Forall plain_word (tl name) -> exists text w, zPH3DFWriteSTL_ASCII pr ph name = Some text /\
  forall fuel, (length text < fuel)%nat -> zPH3DFReadSTL_ASCII fuel junk text = Got (None, Some w).
Proof.
  intros E P. unfold zPH3DFWriteSTL_ASCII, zPH3DTris. rewrite E. cbn [mapM flat_map app]. destruct name as [|w more].
  - eexists. exists (TW "endsolid"). split; [reflexivity|]. intros fuel F. cbn [app length] in F. destruct fuel as [|[|fuel]]; [lia|lia|]. reflexivity.
  - eexists. exists w. split; [reflexivity|]. intros fuel F. cbn [app length] in F. rewrite app_length in F. cbn [length tl] in F, P.
    destruct fuel as [|fuel]; [lia|]. cbn [app zPH3DFReadSTL_ASCII]. replace (is_word (TW "solid") "solid") with true by reflexivity. cbn [app zPH3DFReadSTL_ASCIIsolid].
    assert (exists k, fuel = (length more + S k)%nat) as (k & ->) by (exists (fuel - S (length more))%nat; lia). rewrite skip_words by assumption. reflexivity.
Qed.
(** reading ends on any text *)
Lemma scan_len s p r : scanVec s = Some (p, r) -> (length r <= length s)%nat.
Proof. destruct s as [|[|x] [|[|y] [|[|z] s]]]; cbn; intros H; try discriminate. injection H as _ <-. lia. Qed.
Lemma loop_ends : forall fuel s i v, (length s < fuel)%nat -> stlLoop fuel s i v <> More /\ forall b w r, stlLoop fuel s i v = Got (b, w, r) -> (length r <= length s)%nat.
Proof.
  induction fuel as [|fuel IH]; intros s i v F; [lia|]. cbn [stlLoop]. destruct s as [|t s]; [split; [discriminate|]; intros b w r E; injection E as _ _ <-; cbn; lia|]. cbn [length] in F.
  assert (I : forall i v, stlLoop fuel s i v <> More /\ forall b w r, stlLoop fuel s i v = Got (b, w, r) -> (length r <= length (t :: s))%nat).
  { intros j u. destruct (IH s j u) as [A B]; [lia|]. split; [exact A|]. intros b w r H. apply B in H. cbn. lia. }
  destruct (is_word t "vertex").
  - destruct (Nat.ltb 2 i); [apply I|]. destruct (scanVec s) as [[p r]|] eqn:Q; [|split; discriminate]. apply scan_len in Q.
    destruct (IH r (S i) (slot_set v i p)) as [A B]; [lia|]. split; [exact A|]. intros b w r' H. apply B in H. cbn [length]. lia.
  - destruct (is_word t "endloop"); [|apply I]. split; [discriminate|]. intros b w r H. injection H as _ _ <-. cbn. lia.
Qed.
Lemma asciiloop_ends fuel s v : (length s < fuel)%nat -> zPH3DFReadSTL_ASCIIloop fuel s v <> More /\ forall b w r, zPH3DFReadSTL_ASCIIloop fuel s v = Got (b, w, r) -> (length r <= length s)%nat.
Proof.
  intros F. unfold zPH3DFReadSTL_ASCIIloop. destruct s as [|t s]; [split; [discriminate|]; intros b w r E; injection E as _ _ <-; cbn; lia|]. cbn [length] in F.
  destruct (is_word t "loop").
  - destruct (loop_ends fuel s 0 v) as [A B]; [lia|]. split; [exact A|]. intros b w r H. apply B in H. cbn. lia.
  - split; [discriminate|]. intros b w r H. injection H as _ _ <-. cbn. lia.
Qed.
Lemma facet_ends junk : forall fuel s v fl vt, (length s < fuel)%nat -> zPH3DFReadSTL_ASCIIfacet fuel junk s v fl vt <> More /\
  forall fl' vt' r, zPH3DFReadSTL_ASCIIfacet fuel junk s v fl vt = Got (Some (fl', vt', r)) -> (length r <= length s)%nat.
Proof.
  induction fuel as [|fuel IH]; intros s v fl vt F; [lia|]. cbn [zPH3DFReadSTL_ASCIIfacet]. destruct s as [|t s]; [split; discriminate|]. cbn [length] in F.
  assert (I : forall r v, (length r <= length s)%nat -> zPH3DFReadSTL_ASCIIfacet fuel junk r v fl vt <> More /\
    forall fl' vt' r', zPH3DFReadSTL_ASCIIfacet fuel junk r v fl vt = Got (Some (fl', vt', r')) -> (length r' <= length (t :: s))%nat).
  { intros r u L. destruct (IH r u fl vt) as [A B]; [lia|]. split; [exact A|]. intros a b c H. apply B in H. cbn [length]. lia. }
  destruct (is_word t "normal").
  - destruct (scanVec s) as [[p r]|] eqn:Q; [|split; discriminate]. apply scan_len in Q. apply I. exact Q.
  - destruct (is_word t "outer").
    + destruct (asciiloop_ends fuel s v) as [A B]; [lia|]. destruct (zPH3DFReadSTL_ASCIIloop fuel s v) as [[[b w] r]| |]; [|split; discriminate|congruence]. apply I. eapply B. reflexivity.
    + destruct (is_word t "endfacet"); [|apply I; lia]. destruct v as [[[v0|] [v1|]] [v2|]]; try (split; discriminate).
      destruct (zSTLFacetListReg junk fl vt (v0, v1, v2)) as [[fl' vt']|]; [|split; discriminate]. split; [discriminate|]. intros a b c H. injection H as _ _ <-. cbn [length]. lia.
Qed.
Lemma solid_ends junk : forall fuel s fl vt, (length s < fuel)%nat -> stlSolid fuel junk s fl vt <> More.
Proof.
  induction fuel as [|fuel IH]; intros s fl vt F; [lia|]. cbn [stlSolid]. destruct s as [|t s]; [discriminate|]. cbn [length] in F.
  destruct (is_word t "endsolid"); [discriminate|]. destruct (is_word t "facet"); [|apply IH; lia].
  destruct (facet_ends junk fuel s (None, None, None) fl vt) as [A B]; [lia|]. destruct (zPH3DFReadSTL_ASCIIfacet fuel junk s (None, None, None) fl vt) as [[[[fl' vt'] r]|]| |]; [|discriminate|discriminate|congruence].
  apply IH. specialize (B _ _ _ eq_refl). lia.
Qed.
Lemma stl_text_ends junk : forall fuel s, (length s < fuel)%nat -> zPH3DFReadSTL_ASCII fuel junk s <> More.
Proof.
  induction fuel as [|fuel IH]; intros s F; [lia|]. cbn [zPH3DFReadSTL_ASCII]. destruct s as [|t s]; [discriminate|]. cbn [length] in F.
  destruct (is_word t "solid"); [|apply IH; lia]. unfold zPH3DFReadSTL_ASCIIsolid. destruct s as [|w s]; [discriminate|]. cbn [length] in F.
  pose proof (solid_ends junk fuel s [] zVec3DTreeInit ltac:(lia)) as H. destruct (stlSolid fuel junk s [] zVec3DTreeInit); congruence.
Qed.

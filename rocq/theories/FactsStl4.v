(** A text without the word endsolid gives no polyhedron. *)
From Verif Require Import Base SpecFile ModelVec ModelStl.
From Coq Require Import String List.
Import ListNotations.

Lemma scan_incl s p r : scanVec s = Some (p, r) -> incl r s.
Proof. unfold scanVec. destruct s as [|[w|a] [|[w1|b] [|[w2|c] s]]]; try discriminate. intros E. injection E as _ <-. intros t T. cbn. auto. Qed.
Lemma loop_incl fuel : forall s i v b v' r, stlLoop fuel s i v = Got (b, v', r) -> incl r s.
Proof.
  induction fuel as [|k IH]; intros s i v b v' r E; cbn [stlLoop] in E; [discriminate|]. destruct s as [|t s]; [injection E as _ _ <-; apply incl_refl|].
  destruct (is_word t "vertex").
  - destruct (Nat.ltb 2 i); [apply incl_tl, (IH _ _ _ _ _ _ E)|]. destruct (scanVec s) as [[p s']|] eqn:SC; [|discriminate]. apply incl_tl. eapply incl_tran; [apply (IH _ _ _ _ _ _ E)|apply (scan_incl _ _ _ SC)].
  - destruct (is_word t "endloop"); [injection E as _ _ <-; apply incl_tl, incl_refl|apply incl_tl, (IH _ _ _ _ _ _ E)].
Qed.
Lemma facet_incl fuel junk : forall s v fl t fl' t' r, zPH3DFReadSTL_ASCIIfacet fuel junk s v fl t = Got (Some (fl', t', r)) -> incl r s.
Proof.
  induction fuel as [|k IH]; intros s v fl vt fl' t' r E; cbn [zPH3DFReadSTL_ASCIIfacet] in E; [discriminate|]. destruct s as [|t s]; [discriminate|]. apply incl_tl.
  destruct (is_word t "normal").
  - destruct (scanVec s) as [[p s']|] eqn:SC; [|discriminate]. eapply incl_tran; [apply (IH _ _ _ _ _ _ _ E)|apply (scan_incl _ _ _ SC)].
  - destruct (is_word t "outer").
    + destruct (zPH3DFReadSTL_ASCIIloop k s v) as [[[b v'] s']| |] eqn:L; try discriminate. eapply incl_tran; [apply (IH _ _ _ _ _ _ _ E)|].
      unfold zPH3DFReadSTL_ASCIIloop in L. destruct s as [|u s]; [injection L as _ _ <-; apply incl_refl|]. apply incl_tl. destruct (is_word u "loop"); [apply (loop_incl _ _ _ _ _ _ _ L)|injection L as _ _ <-; apply incl_refl].
    + destruct (is_word t "endfacet"); [|apply (IH _ _ _ _ _ _ _ E)]. destruct v as [[[v0|] [v1|]] [v2|]]; try discriminate. destruct (zSTLFacetListReg junk fl vt (v0, v1, v2)) as [[f1 t1]|]; [|discriminate].
      injection E as _ _ <-. apply incl_refl.
Qed.
Lemma solid_unfinished fuel junk : forall s fl t ph, ~ List.In (TW "endsolid") s -> stlSolid fuel junk s fl t = Got ph -> ph = None.
Proof.
  induction fuel as [|k IH]; intros s fl vt ph H E; cbn [stlSolid] in E; [discriminate|]. destruct s as [|t s]; [injection E as <-; reflexivity|].
  assert (T : is_word t "endsolid" = false). { destruct t as [w|x]; [|reflexivity]. cbn. destruct (String.eqb_spec w "endsolid") as [->|]; [|reflexivity]. exfalso. apply H. left. reflexivity. }
  rewrite T in E. destruct (is_word t "facet").
  - destruct (zPH3DFReadSTL_ASCIIfacet k junk s (None, None, None) fl vt) as [[[[fl' t'] r]|]| |] eqn:F; try discriminate; [|injection E as <-; reflexivity].
    apply (IH _ _ _ _ (fun K => H (or_intror (facet_incl _ _ _ _ _ _ _ _ _ F _ K))) E).
  - apply (IH _ _ _ _ (fun K => H (or_intror K)) E).
Qed.
Lemma stl_unfinished fuel junk : forall s ph name, ~ List.In (TW "endsolid") s -> zPH3DFReadSTL_ASCII fuel junk s = Got (ph, name) -> ph = None.
Proof.
  induction fuel as [|k IH]; intros s ph name H E; cbn [zPH3DFReadSTL_ASCII] in E; [discriminate|]. destruct s as [|t s]; [injection E as <- _; reflexivity|].
  destruct (is_word t "solid"); [|apply (IH s ph name (fun K => H (or_intror K)) E)].
  unfold zPH3DFReadSTL_ASCIIsolid in E. destruct s as [|n s]; [injection E as <- _; reflexivity|]. destruct (stlSolid k junk s [] zVec3DTreeInit) as [p| |] eqn:S; try discriminate. injection E as <- _.
  apply (solid_unfinished _ _ _ _ _ _ (fun K => H (or_intror (or_intror K))) S).
Qed.

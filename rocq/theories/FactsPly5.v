(** PLY files that are refused. *)
From Coq Require Import Ascii String List ZArith Reals Lia Lra.
From Verif Require Import Base Spec SpecPly ModelElem ModelPH ModelPly FactsPly FactsPly2 FactsPly3 FactsPly4.
Import ListNotations.
Open Scope R_scope.

Lemma header_unfinished lines : forall p q, Forall (fun l => forall r, l <> HW "end_header" :: r) lines -> zPLYFReadHeader lines p <> Some (Some q).
Proof.
  induction lines as [|l more IH]; intros p q F; cbn [zPLYFReadHeader]; [discriminate|]. inversion F as [|? ? N F' E1]; subst.
  destruct (nextWord l) as [t r] eqn:W. destruct (hword_is t "end_header") eqn:E.
  - exfalso. destruct l as [|h r']; cbn [nextWord] in W; injection W as <- <-; [discriminate E|]. destruct h as [w|n]; [|discriminate E]. cbn [hword_is] in E. apply String.eqb_eq in E. subst w. apply (N r'). reflexivity.
  - destruct (hword_is t "format"). { destruct (zPLYFReadFormat p r); [apply IH, F'|discriminate]. }
    destruct (hword_is t "element"). { destruct (zPLYFReadElement p r) as [[u|]|]; [apply IH, F'|discriminate|discriminate]. }
    destruct (hword_is t "property"). { destruct (zPLYFReadProperty p r) as [[u|]|]; [apply IH, F'|discriminate|discriminate]. }
    apply IH, F'.
Qed.
Lemma ply_unfinished : forall c junk lines ds ph, Forall (fun l => forall r, l <> HW "end_header"%string :: r) lines -> zPH3DReadFilePLY c junk lines ds <> Some (Some ph).
Proof.
  intros c junk lines ds ph F. unfold zPH3DReadFilePLY. destruct lines as [|[|[w|n] l] more]; try discriminate. destruct (String.prefix "ply" w); [|discriminate].
  inversion F as [|? ? N F' E]; subst. destruct (zPLYFReadHeader more zPLYInit) as [[p|]|] eqn:H; try discriminate. exfalso. exact (header_unfinished more zPLYInit p F' H).
Qed.

Lemma vert_row_list c f p prp : List.In ZLIST prp -> forall j v s x, readVertRow c f p prp j v s <> Some (Some x).
Proof.
  induction prp as [|t prp IH]; intros I j v s x; [contradiction I|]. destruct I as [->|I]; [discriminate|].
  destruct t; cbn [readVertRow]; try discriminate; destruct (read_double c f _ s) as [[val r]|]; try discriminate; apply IH, I.
Qed.
Lemma elem_row_list c f prp : List.In ZLIST prp -> forall s x, elemRow c f prp s <> Some (Some x).
Proof.
  induction prp as [|t prp IH]; intros I s x; [contradiction I|]. destruct I as [->|I]; [discriminate|].
  destruct t; cbn [elemRow]; try discriminate; destruct (read_double c f _ s) as [[val r]|]; try discriminate; apply IH, I.
Qed.
Definition no_list_type (e : zPLYElement) : Prop := pe_type e <> ZFACE /\ pe_type e <> ZRANGE_GRID.
Lemma data_list c f p e es : List.In e es -> no_list_type e -> (0 < pe_num e)%Z -> List.In ZLIST (pe_prp e) -> forall junk ph s x, zPH3DFReadPLYData c f p es junk ph s <> Some (Some x).
Proof.
  intros I [N1 N2] P L. induction es as [|a es IH]; intros junk ph s x; [contradiction I|]. cbn [zPH3DFReadPLYData]. destruct I as [->|I].
  - destruct (Z.to_nat (pe_num e)) as [|n] eqn:En; [lia|]. destruct (pe_type e) eqn:T; try (exfalso; congruence).
    + unfold zPH3DFReadPLYVert. destruct (Z.leb_spec (pe_num e) 0) as [W|_]; [lia|]. destruct (pfaces ph); [|discriminate]. rewrite En. cbn [readVertRows].
      destruct (readVertRow c f p (pe_prp e) 0 junk s) as [[v|]|] eqn:V; try discriminate. exfalso. exact (vert_row_list c f p _ L _ _ _ _ V).
    + cbn [zPH3DFReadPLYElem]. destruct (elemRow c f (pe_prp e) s) as [[v|]|] eqn:V; try discriminate. exfalso. exact (elem_row_list c f _ L _ _ V).
    + cbn [zPH3DFReadPLYElem]. destruct (elemRow c f (pe_prp e) s) as [[v|]|] eqn:V; try discriminate. exfalso. exact (elem_row_list c f _ L _ _ V).
  - destruct (pe_type a).
    + destruct (zPH3DFReadPLYVert c f p a junk ph s) as [[[ph' s']|]|]; try discriminate. apply IH, I.
    + destruct (zPH3DFReadPLYFace c f p a ph s) as [[[ph' s']|]|]; try discriminate. apply IH, I.
    + destruct (zPH3DFReadPLYElem _ c f (pe_prp a) s) as [[s'|]|]; try discriminate. apply IH, I.
    + destruct (zPH3DFReadPLYElem _ c f (pe_prp a) s) as [[s'|]|]; try discriminate. apply IH, I.
    + destruct (zPH3DFReadPLYRangeGrid _ c f p (pe_prp a) s) as [s'|]; try discriminate. apply IH, I.
Qed.
Lemma ply_lists : forall c junk f es lines e tn t ds ph, (forall a, List.In a es -> known_name (el_name a) /\ in_limits a) -> (length es <= 5)%nat -> header f es lines ->
  List.In e es -> List.In (el_name e) ["vertex"; "edge"; "material"]%string -> List.In (Indices tn t) (el_props e) -> el_rows e <> [] ->
  zPH3DReadFilePLY c junk lines ds <> Some (Some ph).
Proof.
  intros c junk f es lines e tn t ds ph K L H I N P NE. destruct (read_header f es lines H) as (more & -> & R); [|exact L|].
  { intros a A. split; [apply known_named|]; apply (K a A). }
  unfold zPH3DReadFilePLY. change (String.prefix "ply" "ply") with true. cbv iota. rewrite R. cbn [p_format p_elem].
  apply (data_list c _ _ (pe_of (etf e) e)).
  - apply (in_map (fun e => pe_of (etf e) e)), I.
  - unfold no_list_type, pe_of, etf. cbn [pe_type]. cbn [List.In] in N. destruct N as [<-|[<-|[<-|N]]]; [split; discriminate|split; discriminate|split; discriminate|contradiction N].
  - unfold pe_of. cbn [pe_num]. destruct (el_rows e); [contradiction NE; reflexivity|cbn [length]; lia].
  - unfold pe_of. cbn [pe_prp]. apply (in_map prp_of) in P. exact P.
Qed.

(** Back to a polyhedron; cutting a polyhedron by another one; merging. *)
From Verif Require Import Base Spec SpecBrep ModelBrep FactsAlg FactsVec FactsBrep FactsBrep2 FactsBrep3 FactsBrep4 FactsBrep5 FactsBrep6 FactsBrep7 FactsBrep8 FactsBrep9 FactsBrep10 FactsBrep11 FactsPH2 FactsCentre.
From Coq Require Import List Lia Lra Psatz.
Import ListNotations.
Open Scope R_scope.

Lemma good_good_verts b : good_brep b -> good_verts b.
Proof. intros G. split; [apply (gb_vnd _ G)|]. split; [intros v Hv; apply (gb_v _ G v Hv)|]. intros f i If Hi. apply good_face_v; assumption. Qed.
Lemma place_ok x l : List.In x l -> exists n, place x l = Some n /\ (n < length l)%nat /\ forall d, nth n l d = x.
Proof.
  induction l as [|a l IH]; intros H; [destruct H|]. cbn. destruct (Nat.eqb_spec x a) as [->|N].
  - exists 0%nat. split; [reflexivity|]. split; [lia|reflexivity].
  - destruct H as [->|H]; [contradiction|]. destruct (IH H) as (n & -> & L & E). exists (S n). split; [reflexivity|]. split; [lia|exact E].
Qed.
Definition idx (l : list nat) (x : nat) : nat := match place x l with Some n => n | None => 0%nat end.
Lemma tri_face_at_verts b f : good_verts b -> List.In f (flist b) -> face_at b f (tri_of b f).
Proof.
  intros (_ & A & B) I i Hi. rewrite get3_tri. destruct (A _ (B f i I Hi)) as (c & H). exists c. split; [assumption|]. unfold posn. rewrite H. reflexivity.
Qed.
Theorem brep2ph b : good_verts b -> exists ph, zBREP2PH3D b = Some ph /\ valid_ph ph /\ length (pverts ph) = length (vlist b) /\
  Forall2 (fun f t => face_at b f t) (flist b) (ph_tris ph) /\ (forall p, on_tris (ph_tris ph) p <-> on_brep b p) /\
  Forall (fun f => let t := corners (pverts ph) (fi0 f, fi1 f, fi2 f) in ~ negligible (tri_area t) -> norm (fnrm f) = 1 /\ vscale (norm (tri_area t)) (fnrm f) = tri_area t) (pfaces ph).
Proof.
  intros GV. destruct GV as (ND & AL & FV). unfold zBREP2PH3D.
  rewrite (mapM_map _ (posn b)) by (intros v Hv; destruct (AL v Hv) as (c & Hc); unfold posn; rewrite Hc; reflexivity). cbn [bind].
  set (vs := map (posn b) (vlist b)).
  assert (LV : length vs = length (vlist b)) by (apply map_length).
  assert (PL : forall v, List.In v (vlist b) -> place v (vlist b) = Some (idx (vlist b) v) /\ (idx (vlist b) v < length vs)%nat /\ vpos vs (idx (vlist b) v) = posn b v).
  { intros v Hv. destruct (place_ok v (vlist b) Hv) as (n & E & L & K). unfold idx. rewrite E. split; [reflexivity|]. split; [rewrite LV; assumption|]. unfold vpos, vs.
    rewrite (nth_indep _ v3zero (posn b 0%nat)) by (rewrite map_length; assumption). rewrite map_nth. rewrite K. reflexivity. }
  set (mk := fun f : bface => FC (idx (vlist b) (get3 (bf_v f) 0)) (idx (vlist b) (get3 (bf_v f) 1)) (idx (vlist b) (get3 (bf_v f) 2))
     (tnorm (snd (zTri3DCreate (posn b (get3 (bf_v f) 0)) (posn b (get3 (bf_v f) 1)) (posn b (get3 (bf_v f) 2)))))).
  assert (MK : forall f, List.In f (flist b) -> facePlaces b vs f = Some (mk f)).
  { intros f If. pose proof (FV f 0%nat If ltac:(lia)) as I0. pose proof (FV f 1%nat If ltac:(lia)) as I1. pose proof (FV f 2%nat If ltac:(lia)) as I2.
    unfold mk. destruct f as [[[x y] z] es n]. unfold facePlaces. cbn [bf_v get3] in *.
    destruct (PL x I0) as (-> & Lx & Px). destruct (PL y I1) as (-> & Ly & Py). destruct (PL z I2) as (-> & Lz & Pz).
    unfold faceCalcNorm, zPH3DFaceTri. cbn [pverts fi0 fi1 fi2 fnrm]. rewrite !nth_error_vpos by assumption. rewrite Px, Py, Pz. reflexivity. }
  rewrite (mapM_map _ mk) by exact MK. cbn [with_faces]. eexists. split; [reflexivity|].
  assert (TR : forall f, List.In f (flist b) -> corners vs (fi0 (mk f), fi1 (mk f), fi2 (mk f)) = tri_of b f).
  { intros f If. apply trip_ext. intros i Hi. rewrite get3_tri. destruct (PL _ (FV f i If Hi)) as (_ & _ & <-). destruct i as [|[|[|i]]]; [reflexivity|reflexivity|reflexivity|lia]. }
  assert (PT : ph_tris (PH vs (map mk (flist b))) = map (tri_of b) (flist b)).
  { unfold ph_tris, ph_faces. cbn [pverts pfaces]. rewrite !map_map. apply map_ext_in. exact TR. }
  split; [|split; [exact LV|split; [|split]]].
  - unfold valid_ph, indices_below, ph_faces. cbn [pverts pfaces]. apply Forall_forall. intros u Hu. rewrite map_map in Hu. apply in_map_iff in Hu. destruct Hu as (f & <- & If).
    unfold mk. cbn. split; [|split]; apply PL; apply FV; auto.
  - rewrite PT. apply Forall2_map_r. assert (Q : forall l, (forall f, List.In f l -> List.In f (flist b)) -> Forall2 (fun f g => face_at b f (tri_of b g)) l l).
    { intros l H. induction l as [|a l IH]; constructor; [apply tri_face_at_verts; [exact (conj ND (conj AL FV))|]; apply H; now left|]. apply IH. intros f Hf. apply H. now right. }
    apply Q. auto.
  - intros p. rewrite PT. unfold on_tris. split.
    + intros (t & It & H). apply in_map_iff in It. destruct It as (f & <- & If). exists f, (tri_of b f). split; [assumption|]. split; [apply tri_face_at_verts; [exact (conj ND (conj AL FV))|assumption]|assumption].
    + intros (f & t & If & F & H). apply face_at_tri in F. subst t. exists (tri_of b f). split; [|assumption]. apply in_map. assumption.
  - cbn [pverts pfaces]. apply Forall_forall. intros g Hg. apply in_map_iff in Hg. destruct Hg as (f & <- & If). rewrite (TR f If). cbv zeta. intros NN.
    unfold mk. cbn [fnrm]. destruct f as [[[x y] z] es n]. cbn [bf_v get3 tri_of tri_area] in *.
    destruct (tri_creation (posn b x) (posn b y) (posn b z)) as [_ K]. destruct (K NN) as (t & E & _ & _ & _ & N1 & N2 & _). rewrite E. cbn [snd]. auto.
Qed.

(** ** cutting a polyhedron by another one *)
Definition unit_faces (ph : ph3) : Prop := Forall (fun f => norm (fnrm f) = 1) (pfaces ph).
(** the height over a face *)
Definition over_face (ph : ph3) (f : face) (p : vec3) : R := height_over (vpos (pverts ph) (fi0 f)) (fnrm f) p.
Lemma forall2_in_l {A B} (P : A -> B -> Prop) l m a : Forall2 P l m -> List.In a l -> exists b, List.In b m /\ P a b.
Proof. intros F I. induction F as [|x y l m H F IH]; [destruct I|]. destruct I as [<-|I]; [exists y; split; [now left|assumption]|]. destruct (IH I) as (b & Ib & K). exists b. split; [now right|assumption]. Qed.
Lemma forall2_in_r {A B} (P : A -> B -> Prop) l m b : Forall2 P l m -> List.In b m -> exists a, List.In a l /\ P a b.
Proof. intros F I. induction F as [|x y l m H F IH]; [destruct I|]. destruct I as [<-|I]; [exists x; split; [now left|assumption]|]. destruct (IH I) as (a & Ia & K). exists a. split; [now right|assumption]. Qed.
Lemma ph2brep_on ph b : good_brep b -> Forall2 (fun t f => face_at b f t) (ph_tris ph) (flist b) -> forall p, on_brep b p <-> on_tris (ph_tris ph) p.
Proof.
  intros G F p. split.
  - intros (f & t & If & Ft & H). destruct (forall2_in_r _ _ _ _ F If) as (t' & It & K). exists t'. split; [assumption|]. apply face_at_tri in Ft. apply face_at_tri in K. congruence.
  - intros (t & It & H). destruct (forall2_in_l _ _ _ _ F It) as (f & If & K). exists f, t. auto.
Qed.
Record phcut (src cut : ph3) (b : brep) : Prop := PC {
  pc_good : good_brep b;
  pc_sub : forall p, on_brep b p -> on_tris (ph_tris src) p /\ forall f, List.In f (pfaces cut) -> over_face cut f p < zTOL;
  pc_sup : forall p, on_tris (ph_tris src) p -> (forall f, List.In f (pfaces cut) -> over_face cut f p <= - zTOL) -> on_brep b p;
  pc_piece : forall g s, List.In g (flist b) -> face_at b g s -> exists t, List.In t (ph_tris src) /\ piece_of t s }.
Lemma cut_of src cut : valid_ph src -> well_apart zTOL (pverts src) -> valid_ph cut -> unit_faces cut ->
  exists b b', zPH3D2BREP src = Some b /\ zBREPTruncPH3D b cut = Some b' /\ phcut src cut b'.
Proof.
  intros V WA VC U. destruct (ph2brep src V) as (b & E & G & _ & _ & _ & _ & X & _). specialize (X WA).
  assert (TU : forall t, List.In t (map (tri_at (pverts cut)) (pfaces cut)) -> norm (tnorm t) = 1).
  { intros t It. apply in_map_iff in It. destruct It as (f & <- & If). unfold unit_faces in U. rewrite Forall_forall in U. apply (U f If). }
  destruct (brep_trunc_ph b cut _ G (tris_ok cut VC) TU) as (b' & E' & G' & P & S1 & S2 & _). exists b, b'. split; [assumption|]. split; [assumption|].
  pose proof (ph2brep_on src b G X) as ON. constructor.
  - assumption.
  - intros p O. destruct (S1 p O) as [O1 H]. split; [apply ON; assumption|]. intros f If. apply (H (tri_at (pverts cut) f)). apply in_map. assumption.
  - intros p O H. apply S2; [apply ON; assumption|]. intros t It. apply in_map_iff in It. destruct It as (f & <- & If). apply (H f If).
  - intros g s Ig F. destruct (P g s Ig F) as (f & t & If & Ft & Q). destruct (forall2_in_r _ _ _ _ X If) as (t' & It & K). apply face_at_tri in Ft. apply face_at_tri in K. exists t'. split; [assumption|]. congruence.
Qed.
(** the planes of the faces *)
Definition ph_planes (ph : ph3) : list (vec3 * vec3) := map (fun f => (vpos (pverts ph) (fi0 f), fnrm f)) (pfaces ph).
Lemma in_planes ph o n : List.In (o, n) (ph_planes ph) <-> exists f, List.In f (pfaces ph) /\ o = vpos (pverts ph) (fi0 f) /\ n = fnrm f.
Proof. unfold ph_planes. rewrite in_map_iff. split; [intros (f & E & I); injection E as <- <-; eauto|intros (f & I & -> & ->); eauto]. Qed.
Lemma phcut_out src cut b ts : phcut src cut b -> Forall2 (fun f t => face_at b f t) (flist b) ts -> cut_out zTOL (ph_tris src) (ph_planes cut) ts.
Proof.
  intros C F.
  assert (ON : forall p, on_tris ts p <-> on_brep b p).
  { intros p. split.
    - intros (t & It & H). destruct (forall2_in_r _ _ _ _ F It) as (f & If & K). exists f, t. auto.
    - intros (f & t & If & Ft & H). destruct (forall2_in_l _ _ _ _ F If) as (t' & It & K). exists t'. split; [assumption|]. apply face_at_tri in Ft. apply face_at_tri in K. congruence. }
  split; [|split].
  - intros p O. apply ON in O. destruct (pc_sub _ _ _ C p O) as (A & B). split; [assumption|]. intros o n I. apply in_planes in I. destruct I as (f & If & -> & ->). apply (B f If).
  - intros p O H. apply ON. apply (pc_sup _ _ _ C); [assumption|]. intros f If. apply H. apply in_planes. eauto.
  - intros s Is. destruct (forall2_in_r _ _ _ _ F Is) as (g & Ig & K). apply (pc_piece _ _ _ C g s Ig K).
Qed.
Theorem ph_trunc src cut : valid_ph src -> well_apart zTOL (pverts src) -> valid_ph cut -> unit_faces cut ->
  exists ph, zPH3DTruncBREP src cut = Some ph /\ valid_ph ph /\ cut_out zTOL (ph_tris src) (ph_planes cut) (ph_tris ph).
Proof.
  intros V WA VC U. destruct (cut_of src cut V WA VC U) as (b & b' & E & E' & C). unfold zPH3DTruncBREP. rewrite E. cbn [bind]. rewrite E'. cbn [bind].
  destruct (brep2ph b' (good_good_verts _ (pc_good _ _ _ C))) as (ph & -> & VP & _ & F & ON & _). exists ph. split; [reflexivity|]. split; [assumption|]. eapply phcut_out; eassumption.
Qed.

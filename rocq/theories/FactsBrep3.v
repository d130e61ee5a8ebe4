(** Reconfiguration of one face. *)
From Verif Require Import Base Spec SpecBrep ModelBrep FactsAlg FactsVec FactsBrep FactsBrep2.
From Coq Require Import List Lia Lra Psatz.
Import ListNotations.
Open Scope R_scope.

(** the edges as they will be after shrinking *)
Definition shr (b : brep) (c : ecell) : ecell :=
  match ec_cut c with None => c | Some x => if Rltb 0 (hgt b (ec_a c)) then EGC x (ec_b c) None else EGC (ec_a c) x None end.
Definition sh (b : brep) : brep := BR (br_v b) (fun e => option_map (shr b) (br_e b e)) (br_next b) (vlist b) (elist b) (flist b).
Definition tri_of (b : brep) (f : bface) : vec3 * vec3 * vec3 := let '(x, y, z) := bf_v f in (posn b x, posn b y, posn b z).
Definition hgts (b : brep) (f : bface) : R * R * R := let '(x, y, z) := bf_v f in (hgt b x, hgt b y, hgt b z).

(** after the intersections *)
Record cutstate (b : brep) : Prop := CS {
  cs_vn : NoDup (vlist b);
  cs_en : NoDup (elist b);
  cs_v : forall v, List.In v (vlist b) -> (v < br_next b)%nat /\ exists c, br_v b v = Some c;
  cs_e : forall e, List.In e (elist b) -> (e < br_next b)%nat /\ exists c, br_e b e = Some c /\ List.In (ec_a c) (vlist b) /\ List.In (ec_b c) (vlist b) /\
    ((ec_cut c = None /\ ~ hgt b (ec_a c) * hgt b (ec_b c) < 0) \/
     (exists x, ec_cut c = Some x /\ hgt b (ec_a c) * hgt b (ec_b c) < 0 /\ List.In x (vlist b) /\ hgt b x = 0 /\
        posn b x = cutp (posn b (ec_a c)) (posn b (ec_b c)) (hgt b (ec_a c)) (hgt b (ec_b c)))) }.
(** while the faces are processed *)
Record mid (b1 b : brep) : Prop := MID {
  md_v : br_v b = br_v b1; md_vl : vlist b = vlist b1; md_n : (br_next b1 <= br_next b)%nat;
  md_e : forall e, (e < br_next b1)%nat -> br_e b e = br_e b1 e;
  md_nd : NoDup (elist b);
  md_new : exists new, elist b = elist b1 ++ new /\ forall e, List.In e new -> (br_next b1 <= e < br_next b)%nat /\
    exists x y, br_e b e = Some (EGC x y None) /\ List.In x (vlist b1) /\ List.In y (vlist b1) /\ hgt b1 x <= 0 /\ hgt b1 y <= 0 }.
Record ext (b b' : brep) : Prop := EXT {
  ex_n : (br_next b <= br_next b')%nat;
  ex_e : forall e, (e < br_next b)%nat -> br_e b' e = br_e b e;
  ex_l : exists new, elist b' = elist b ++ new /\ forall e, List.In e new -> (br_next b <= e)%nat }.

Definition fit (b : brep) (e u v : nat) : Prop := List.In e (elist b) /\ exists c, br_e b e = Some c /\ joins c u v.
Lemma fit_sym b e u v : fit b e u v -> fit b e v u.
Proof. intros (A & c & B & C). split; [assumption|]. exists c. split; [assumption|]. destruct C as [C|C]; [right|left]; tauto. Qed.
Lemma mid_hgt b1 b v : mid b1 b -> hgt b v = hgt b1 v.
Proof. intros M. unfold hgt. rewrite (md_v _ _ M). reflexivity. Qed.
Lemma mid_posn b1 b v : mid b1 b -> posn b v = posn b1 v.
Proof. intros M. unfold posn. rewrite (md_v _ _ M). reflexivity. Qed.
Lemma mid_shr b1 b c : mid b1 b -> shr b c = shr b1 c.
Proof. intros M. unfold shr. rewrite (mid_hgt _ _ _ M). reflexivity. Qed.

(** an edge with an end beneath [u] and an end beyond [v] *)
Lemma fit_cut b e u v : cutstate b -> fit b e u v -> hgt b u < 0 -> 0 < hgt b v ->
  exists c x, br_e b e = Some c /\ ec_cut c = Some x /\ List.In x (vlist b) /\ hgt b x = 0 /\ posn b x = cutp (posn b v) (posn b u) (hgt b v) (hgt b u) /\
    joins (shr b c) u x /\ run (shr b c) u x = run c u v /\ run (shr b c) x u = run c v u.
Proof.
  intros CS (I & c & Hc & J) HU HV. destruct (cs_e _ CS e I) as (_ & c' & Hc' & Ia & Ib & K). rewrite Hc in Hc'. injection Hc' as <-.
  assert (UV : u <> v) by (intros ->; lra).
  assert (PR : hgt b (ec_a c) * hgt b (ec_b c) < 0) by (destruct J as [[-> ->]|[-> ->]]; nra).
  destruct K as [[_ K]|(x & K1 & K2 & K3 & K4 & K5)]; [contradiction|].
  assert (XU : x <> u) by (intros ->; lra). assert (XV : x <> v) by (intros ->; lra).
  exists c, x. do 4 (split; [assumption|]). split.
  { rewrite K5. destruct J as [[-> ->]|[-> ->]]; [|reflexivity]. apply cutp_sym. nra. }
  unfold shr. rewrite K1. destruct J as [[Ja Jb]|[Ja Jb]]; rewrite Ja, ?Jb.
  - destruct (Rltb_reflect 0 (hgt b u)); [lra|]. split; [left; auto|]. unfold run. rewrite Ja, Jb. cbn.
    rewrite !Nat.eqb_refl. cbn.
    rewrite (proj2 (Nat.eqb_neq u x)) by auto. rewrite (proj2 (Nat.eqb_neq u v)) by auto. cbn. auto.
  - destruct (Rltb_reflect 0 (hgt b v)); [|lra]. split; [right; auto|]. unfold run. rewrite Ja, Jb. cbn.
    rewrite !Nat.eqb_refl. cbn.
    rewrite (proj2 (Nat.eqb_neq x u)) by auto. rewrite (proj2 (Nat.eqb_neq v u)) by auto. cbn. auto.
Qed.
Lemma fit_uncut b e u v : cutstate b -> fit b e u v -> ~ hgt b u * hgt b v < 0 -> exists c, br_e b e = Some c /\ ec_cut c = None /\ shr b c = c /\ joins c u v.
Proof.
  intros CS (I & c & Hc & J) H. destruct (cs_e _ CS e I) as (_ & c' & Hc' & Ia & Ib & K). rewrite Hc in Hc'. injection Hc' as <-.
  destruct K as [[K _]|(x & K1 & K2 & _)].
  - exists c. unfold shr. rewrite K. auto.
  - exfalso. destruct J as [[Ja Jb]|[Ja Jb]]; rewrite Ja, Jb in K2; lra.
Qed.
(** an edge with an end strictly beneath *)
Definition below (b : brep) (e : nat) : Prop := exists c, br_e b e = Some c /\ (hgt b (ec_a c) < 0 \/ hgt b (ec_b c) < 0).
Lemma fit_below b e u v : fit b e u v -> below b e -> hgt b u < 0 \/ hgt b v < 0.
Proof. intros (_ & c & Hc & J) (c' & Hc' & K). rewrite Hc in Hc'. injection Hc' as <-. destruct J as [[-> ->]|[-> ->]] in K; tauto. Qed.

(** a face that fits in the shrunk structure *)
Definition pface (b : brep) (g : bface) : Prop :=
  forall i, (i < 3)%nat -> List.In (get3 (bf_v g) i) (vlist b) /\ hgt b (get3 (bf_v g) i) <= 0 /\ List.In (get3 (bf_e g) i) (elist b) /\
    exists c, br_e b (get3 (bf_e g) i) = Some c /\ joins (shr b c) (get3 (bf_v g) (nxt i)) (get3 (bf_v g) (nxt (nxt i))).
Definition runs (b : brep) (ps : list bface) (e : nat) : R := rsum (fun g => face_run (sh b) g e) ps.
Record cutres (b1 b : brep) (f : bface) (b' : brep) (ps : list bface) : Prop := CR {
  cr_mid : mid b1 b'; cr_ext : ext b b';
  cr_face : forall g, List.In g ps -> pface b' g;
  cr_area : forall g, List.In g ps -> exists k, 0 < k /\ tri_area (tri_of b1 g) = vscale k (tri_area (tri_of b1 f));
  cr_sub : forall g p, List.In g ps -> in_tri (tri_of b1 g) p -> kept (tri_of b1 f) (hgts b1 f) p;
  cr_sup : forall p, kept (tri_of b1 f) (hgts b1 f) p -> (exists i, (i < 3)%nat /\ get3 (hgts b1 f) i < 0) \/ (forall i, (i < 3)%nat -> get3 (hgts b1 f) i <= 0) ->
    exists g, List.In g ps /\ in_tri (tri_of b1 g) p;
  cr_old : forall e, List.In e (elist b1) -> below b1 e -> runs b' ps e = face_run b1 f e;
  cr_prev : forall e, (br_next b1 <= e < br_next b)%nat -> runs b' ps e = 0;
  cr_new : forall e, (br_next b <= e < br_next b')%nat -> runs b' ps e = 0 \/ exists c, br_e b' e = Some c /\ hgt b1 (ec_a c) = 0 /\ hgt b1 (ec_b c) = 0 }.

(** ** Turning a face *)
Definition rotf (f : bface) : bface := let '(x, y, z) := bf_v f in let '(p, q, r) := bf_e f in BF (y, z, x) (q, r, p) (bf_norm f).
Lemma tri_area_rot x y z : tri_area (y, z, x) = tri_area (x, y, z).
Proof. unfold tri_area, tri_normal. vxy; ring. Qed.
Lemma in_tri_of_rot b f p : in_tri (tri_of b (rotf f)) p <-> in_tri (tri_of b f) p.
Proof. destruct f as [[[x y] z] [[p' q'] r'] n]. cbn -[in_tri]. symmetry. apply in_tri_rot. Qed.
Lemma kept_of_rot b f p : kept (tri_of b (rotf f)) (hgts b (rotf f)) p <-> kept (tri_of b f) (hgts b f) p.
Proof. destruct f as [[[x y] z] [[p' q'] r'] n]. cbn -[kept]. symmetry. apply kept_rot. Qed.
Lemma area_of_rot b f : tri_area (tri_of b (rotf f)) = tri_area (tri_of b f).
Proof. destruct f as [[[x y] z] [[p' q'] r'] n]. cbn -[tri_area]. apply tri_area_rot. Qed.
Lemma face_run_rot b f e : face_run b (rotf f) e = face_run b f e.
Proof. destruct f as [[[x y] z] [[p' q'] r'] n]. unfold face_run, side_run. cbn [rotf bf_v bf_e get3 nxt]. ring. Qed.
Lemma pface_rot b f : pface b (rotf f) -> pface b f.
Proof.
  destruct f as [[[x y] z] [[p' q'] r'] n]. unfold pface. cbn [rotf bf_v bf_e]. intros H i Hi.
  destruct i as [|[|[|i]]]; [apply (H 2%nat); lia|apply (H 0%nat); lia|apply (H 1%nat); lia|lia].
Qed.
Lemma cutres_rot b1 b f b' g l : cutres b1 b (rotf f) b' (rotf g :: l) -> cutres b1 b f b' (g :: l).
Proof.
  intros C.
  assert (RR : forall e, runs b' (rotf g :: l) e = runs b' (g :: l) e) by (intros e; unfold runs; cbn; rewrite face_run_rot; reflexivity).
  constructor.
  - apply (cr_mid _ _ _ _ _ C).
  - apply (cr_ext _ _ _ _ _ C).
  - intros h [<-|Hh]; [apply pface_rot|]; apply (cr_face _ _ _ _ _ C); [now left|now right].
  - intros h [<-|Hh].
    + destruct (cr_area _ _ _ _ _ C (rotf g) (or_introl eq_refl)) as (k & K & E). rewrite !area_of_rot in E. eauto.
    + destruct (cr_area _ _ _ _ _ C h (or_intror Hh)) as (k & K & E). rewrite !area_of_rot in E. eauto.
  - intros h p [<-|Hh] Hp; apply kept_of_rot.
    + apply (cr_sub _ _ _ _ _ C (rotf g) p (or_introl eq_refl)). apply in_tri_of_rot. assumption.
    + apply (cr_sub _ _ _ _ _ C h p (or_intror Hh)). assumption.
  - intros p Hp Hh. destruct (cr_sup _ _ _ _ _ C p) as (h & I & Q); [apply kept_of_rot; assumption| |].
    { destruct f as [[[x y] z] [[p' q'] r'] n]. cbn [rotf bf_v hgts] in *. destruct Hh as [(i & Hi & Q)|Hh].
      - left. destruct i as [|[|[|i]]]; [exists 2%nat|exists 0%nat|exists 1%nat|lia]; (split; [lia|exact Q]).
      - right. intros i Hi. destruct i as [|[|[|i]]]; [apply (Hh 1%nat); lia|apply (Hh 2%nat); lia|apply (Hh 0%nat); lia|lia]. }
    destruct I as [<-|I]; [exists g; split; [now left|apply in_tri_of_rot; assumption]|exists h; split; [now right|assumption]].
  - intros e I B. rewrite <- RR. rewrite (cr_old _ _ _ _ _ C e I B). apply face_run_rot.
  - intros e He. rewrite <- RR. apply (cr_prev _ _ _ _ _ C e He).
  - intros e He. rewrite <- RR. apply (cr_new _ _ _ _ _ C e He).
Qed.

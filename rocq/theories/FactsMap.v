(** Proofs about files of elevation maps. *)
From Coq Require Import Ascii String Lra Lia List ZArith.
From Verif Require Import Base FactsVec SpecZtk ModelZtk FactsZtk SpecMap ModelMap FactsTerra2 FactsTerra3.
Import ListNotations.
Open Scope R_scope.

(** ** Lines of nodes *)
Definition put (t : terra) (g : node) : terra :=
  let c := grid t (ndi g) (ndj g) in set_cell t (ndi g) (ndj g) (TC (ndz g) (ndn g) (ndv g) (ndt g) (tprm c) (tS c) (tnp c)).
Definition inside (t : terra) (g : node) : Prop := valid t (ndi g) (ndj g) = true.
Lemma node_read t n g : inside t g -> trGrid t n (snd (node_line g)) = ROk (put t g).
Proof.
  intros V. unfold node_line, trGrid. cbn [snd ZTKInt tok_int]. unfold zTerraGrid. rewrite V. cbn [ZTKDouble tok_num ZTKInt tok_int fst]. unfold put. destruct g as [i j z [a b c] v k]. cbn [ndi ndj ndz ndn ndv ndt vx vy vz]. destruct k; reflexivity.
Qed.
Lemma inside_put t g h : inside t h -> inside (put t g) h.
Proof. exact (fun H => H). Qed.
Lemma nodes_read gs : forall t seen, Forall (inside t) gs -> evalKeys terraPrp seen t (map node_line gs) = ROk (fold_left put gs t).
Proof.
  induction gs as [|g gs IH]; intros t seen F; [reflexivity|]. inversion F as [|? ? V F']; subst. cbn [map fold_left].
  pose proof (node_read t (occs "grid" seen) g V) as N. unfold node_line at 1. unfold node_line in N. cbn [snd] in N.
  cbn [evalKeys]. replace (find (fun p => String.eqb (pkey p) "grid") terraPrp) with (Some (PRP "grid"%string None trGrid)) by reflexivity. cbn [pnum over pev]. rewrite N. apply IH.
  eapply Forall_impl; [|exact F']. intros h. apply inside_put.
Qed.
Definition headof (t : terra) := (xmin t, xmax t, ymin t, ymax t, (zmin t, zmax t, tdx t, tdy t), (th_var t, th_grd t, th_res t), (nx t, ny t)).
Lemma put_head gs : forall t, headof (fold_left put gs t) = headof t.
Proof. induction gs as [|g gs IH]; intros t; [reflexivity|]. cbn [fold_left]. rewrite IH. reflexivity. Qed.
Lemma put_cell t g i j : grid (put t g) i j = if ((i =? ndi g) && (j =? ndj g))%Z then let c := grid t i j in TC (ndz g) (ndn g) (ndv g) (ndt g) (tprm c) (tS c) (tnp c) else grid t i j.
Proof.
  unfold put, set_cell, with_grid. cbn [grid]. destruct ((i =? ndi g)%Z) eqn:A, ((j =? ndj g)%Z) eqn:B; cbn [andb]; try reflexivity. apply Z.eqb_eq in A, B. subst. reflexivity.
Qed.
Lemma put_fresh gs : forall t i j, fresh (grid t i j) -> fresh (grid (fold_left put gs t) i j).
Proof. induction gs as [|g gs IH]; intros t i j F; [exact F|]. cbn [fold_left]. apply IH. rewrite put_cell. destruct (_ && _)%bool; exact F. Qed.
Lemma put_none gs : forall t i j, Forall (fun h => ~ at_node i j h) gs -> grid (fold_left put gs t) i j = grid t i j.
Proof.
  induction gs as [|g gs IH]; intros t i j F; [reflexivity|]. inversion F as [|? ? N F']; subst. cbn [fold_left]. rewrite IH by exact F'. rewrite put_cell.
  destruct ((i =? ndi g)%Z) eqn:A, ((j =? ndj g)%Z) eqn:B; cbn [andb]; try reflexivity. apply Z.eqb_eq in A, B. exfalso. apply N. split; congruence.
Qed.
Lemma put_last gs t i j g : last_for gs i j g -> shows (grid (fold_left put gs t) i j) g.
Proof.
  intros (l1 & l2 & -> & (A & B) & F). rewrite fold_left_app. cbn [fold_left]. rewrite put_none by exact F. rewrite put_cell, <- A, <- B, !Z.eqb_refl. cbn [andb]. unfold shows. cbn. tauto.
Qed.

(** ** The head *)
Lemma zMinmax a b : zMin a b = Rmin a b /\ zMax a b = Rmax a b.
Proof. unfold zMin, zMax, Rmin, Rmax. destruct (Rltb_reflect a b), (Rle_dec a b); try (destruct (Rltb_reflect b a)); split; try reflexivity; lra. Qed.
Definition blank (x0 y0 dx dy : R) (xs ys : Z) (z0 z1 tv tg tr : R) : terra :=
  Terra x0 (x0 + IZR (xs - 1) * dx) y0 (y0 + IZR (ys - 1) * dy) (Rmin z0 z1) (Rmax z0 z1) dx dy tv (cos (zDeg2Rad tg)) tr xs ys (fun _ _ => zTerraCellInit).
Section Steps.
Variables (a b c d e f g h i j k x y : R) (m n p q : Z) (o : Z -> Z -> tcell) (w : nat).
Lemma st_origin : trOrigin (Terra a b c d e f g h i j k m n o) w [TNum x; TNum y] = ROk (Terra x b y d e f g h i j k m n o).
Proof. reflexivity. Qed.
Lemma st_resol : zTOL <= Rabs x -> zTOL <= Rabs y -> trResol (Terra a b c d e f g h i j k m n o) w [TNum x; TNum y] = ROk (Terra a b c d e f x y i j k m n o).
Proof.
  intros DX DY. unfold trResol. cbn [ZTKDouble tok_num]. replace (zIsTiny x) with false by (symmetry; apply zIsTiny_false; exact DX). replace (zIsTiny y) with false by (symmetry; apply zIsTiny_false; exact DY). reflexivity.
Qed.
Lemma st_size : (0 < p)%Z -> (0 < q)%Z -> trSize (Terra a b c d e f g h i j k m n o) w [TInt p; TInt q] = ROk (Terra a (a + IZR (p - 1) * g) c (c + IZR (q - 1) * h) e f g h i j k p q (fun _ _ => zTerraCellInit)).
Proof.
  intros HX HY. unfold trSize. cbn [ZTKInt tok_int]. unfold zTerraAlloc.
  replace ((p =? 0) || (q =? 0))%Z with false by (symmetry; apply Bool.orb_false_iff; split; apply Z.eqb_neq; lia).
  replace ((p <? 0) || (q <? 0))%Z with false by (symmetry; apply Bool.orb_false_iff; split; apply Z.ltb_ge; lia). reflexivity.
Qed.
Lemma st_zrange : trZRange (Terra a b c d e f g h i j k m n o) w [TNum x; TNum y] = ROk (Terra a b c d (Rmin x y) (Rmax x y) g h i j k m n o).
Proof. destruct (zMinmax x y) as (<- & <-). reflexivity. Qed.
Lemma st_var : trVar (Terra a b c d e f g h i j k m n o) w [TNum x] = ROk (Terra a b c d e f g h x j k m n o).
Proof. reflexivity. Qed.
Lemma st_grd : trGrd (Terra a b c d e f g h i j k m n o) w [TNum x] = ROk (Terra a b c d e f g h i (cos (zDeg2Rad x)) k m n o).
Proof. reflexivity. Qed.
Lemma st_res : trRes (Terra a b c d e f g h i j k m n o) w [TNum x] = ROk (Terra a b c d e f g h i j x m n o).
Proof. reflexivity. Qed.
End Steps.
Lemma head_read x0 y0 dx dy xs ys z0 z1 tv tg tr : zTOL <= Rabs dx -> zTOL <= Rabs dy -> (0 < xs)%Z -> (0 < ys)%Z ->
  evalKeys terraPrp [] zTerraInit (head_lines x0 y0 dx dy xs ys z0 z1 tv tg tr) = ROk (blank x0 y0 dx dy xs ys z0 z1 tv tg tr).
Proof.
  intros DX DY HX HY. unfold head_lines, terraPrp, zTerraInit. keys. rewrite st_origin. keys. rewrite st_resol by assumption. keys. rewrite st_size by assumption. keys. rewrite st_zrange. keys. rewrite st_var. keys. rewrite st_grd. keys. rewrite st_res. reflexivity.
Qed.
Lemma file_read x0 y0 dx dy xs ys z0 z1 tv tg tr gs : zTOL <= Rabs dx -> zTOL <= Rabs dy -> (0 < xs)%Z -> (0 < ys)%Z -> Forall (inside (blank x0 y0 dx dy xs ys z0 z1 tv tg tr)) gs ->
  zTerraFromZTK (head_lines x0 y0 dx dy xs ys z0 z1 tv tg tr ++ map node_line gs) = ROk (fold_left put gs (blank x0 y0 dx dy xs ys z0 z1 tv tg tr)).
Proof.
  intros DX DY HX HY F. unfold zTerraFromZTK, ZTKEvalKey. rewrite eval_app, head_read by assumption. apply nodes_read. exact F.
Qed.
Lemma valid_iff t i j : valid t i j = true <-> (0 <= i < nx t)%Z /\ (0 <= j < ny t)%Z.
Proof. unfold valid. rewrite !Bool.andb_true_iff, !Z.leb_le, !Z.ltb_lt. lia. Qed.
Lemma map_lines : forall x0 y0 dx dy xs ys z0 z1 tv tg tr gs, zTOL <= Rabs dx -> zTOL <= Rabs dy -> (0 < xs)%Z -> (0 < ys)%Z ->
  Forall (fun g => (0 <= ndi g < xs)%Z /\ (0 <= ndj g < ys)%Z) gs ->
  exists t, zTerraFromZTK (head_lines x0 y0 dx dy xs ys z0 z1 tv tg tr ++ map node_line gs) = ROk t /\
    xmin t = x0 /\ ymin t = y0 /\ tdx t = dx /\ tdy t = dy /\ nx t = xs /\ ny t = ys /\
    xmax t = zTerraX t (xs - 1) /\ ymax t = zTerraY t (ys - 1) /\ zmin t = Rmin z0 z1 /\ zmax t = Rmax z0 z1 /\
    th_var t = tv /\ th_grd t = cos (tg * PI / 180) /\ th_res t = tr /\ all_fresh t /\
    forall i j, (0 <= i < xs)%Z -> (0 <= j < ys)%Z -> exists c, zTerraGrid t i j = Some c /\
      (forall g, last_for gs i j g -> shows c g) /\ (Forall (fun g => ~ at_node i j g) gs -> c = zTerraCellInit).
Proof.
  intros x0 y0 dx dy xs ys z0 z1 tv tg tr gs DX DY HX HY F.
  assert (F' : Forall (inside (blank x0 y0 dx dy xs ys z0 z1 tv tg tr)) gs) by (eapply Forall_impl; [|exact F]; intros g G; apply valid_iff; exact G).
  rewrite file_read by assumption. eexists. split; [reflexivity|].
  pose proof (put_head gs (blank x0 y0 dx dy xs ys z0 z1 tv tg tr)) as H. unfold headof in H. set (t := fold_left put gs _) in *.
  injection H as H1 H2 H3 H4 H5 H6 H7 H8 H9 H10 H11 H12 H13. cbn [blank xmin xmax ymin ymax zmin zmax tdx tdy th_var th_grd th_res nx ny] in *.
  unfold zTerraX, zTerraY. rewrite H1, H2, H3, H4, H5, H6, H7, H8, H9, H10, H11, H12, H13. repeat (split; [reflexivity|]). split.
  - intros i j c G. unfold zTerraGrid in G. destruct (valid t i j); [|discriminate]. injection G as <-. apply put_fresh. repeat split.
  - intros i j Hi Hj. exists (grid t i j). split.
    + unfold zTerraGrid. replace (valid t i j) with true; [reflexivity|]. symmetry. apply valid_iff. rewrite H12, H13. split; assumption.
    + split; [intros g G; apply put_last; exact G|]. intros G. unfold t. rewrite put_none by exact G. reflexivity.
Qed.

(** ** What is written *)
Definition node_of (t : terra) (i j : Z) : node := let c := grid t i j in ND i j (tz c) (tnorm c) (tvar c) (ttravs c).
Definition nodes_of (t : terra) : list node := flat_map (fun i => map (node_of t i) (indices (ny t))) (indices (nx t)).
Lemma in_indices n i : List.In i (indices n) <-> (0 <= i < n)%Z.
Proof.
  unfold indices. rewrite in_map_iff. split.
  - intros (k & <- & I). apply in_seq in I. lia.
  - intros H. exists (Z.to_nat i). split; [lia|]. apply in_seq. lia.
Qed.
Lemma nodes_in t g : List.In g (nodes_of t) -> (0 <= ndi g < nx t)%Z /\ (0 <= ndj g < ny t)%Z /\ g = node_of t (ndi g) (ndj g).
Proof.
  intros I. unfold nodes_of in I. apply in_flat_map in I. destruct I as (i & A & B). apply in_map_iff in B. destruct B as (j & <- & B). apply in_indices in A, B. cbn. tauto.
Qed.
Lemma last_unique t : forall l i j, (forall g, List.In g l -> g = node_of t (ndi g) (ndj g)) -> (exists g, List.In g l /\ at_node i j g) -> last_for l i j (node_of t i j).
Proof.
  induction l as [|h l IH]; intros i j A (g & I & B); [destruct I|].
  assert (D : (exists g, List.In g l /\ at_node i j g) \/ Forall (fun h => ~ at_node i j h) l).
  { clear. induction l as [|h l [IH|IH]]; [right; constructor| |]; [left; destruct IH as (g & I & B); exists g; split; [right; exact I|exact B]|].
    destruct (Z.eq_dec (ndi h) i) as [E1|E1], (Z.eq_dec (ndj h) j) as [E2|E2]; [left; exists h; split; [left; reflexivity|split; assumption]| | |]; right; constructor; try exact IH; intros (X & Y); congruence. }
  destruct D as [D|D].
  - destruct (IH i j) as (l1 & l2 & E & X & Y); [intros x Ix; apply A; right; exact Ix|exact D|]. exists (h :: l1), l2. rewrite E. split; [reflexivity|]. split; assumption.
  - destruct I as [->|I].
    + exists [], l. pose proof (A g (or_introl eq_refl)) as E. destruct B as (B1 & B2). rewrite B1, B2 in E. rewrite <- E. split; [reflexivity|]. split; [split; assumption|exact D].
    + exfalso. rewrite Forall_forall in D. exact (D g I B).
Qed.
Lemma map_flat {A B C} (f : B -> C) (g : A -> list B) l : map f (flat_map g l) = flat_map (fun x => map f (g x)) l.
Proof. induction l as [|x l IH]; [reflexivity|]. cbn. rewrite map_app, IH. reflexivity. Qed.
Lemma print_lines t : -1 <= th_grd t <= 1 -> zTerraFPrintZTK t = Some (head_lines (xmin t) (ymin t) (tdx t) (tdy t) (nx t) (ny t) (zmin t) (zmax t) (th_var t) (zRad2Deg (acos (th_grd t))) (th_res t) ++ map node_line (nodes_of t)).
Proof.
  intros H. unfold zTerraFPrintZTK. destruct (Rltb_reflect (th_grd t) (-1)); [lra|]. destruct (Rltb_reflect 1 (th_grd t)); [lra|]. cbn [orb]. unfold nodes_of. rewrite map_flat. f_equal. unfold head_lines. f_equal.
  apply flat_map_ext. intros i. rewrite map_map. apply map_ext. intros j. reflexivity.
Qed.
Lemma deg_back c : -1 <= c <= 1 -> cos (zRad2Deg (acos c) * PI / 180) = c.
Proof. intros H. unfold zRad2Deg. pose proof PI_RGT_0. replace (acos c * 180 / PI * PI / 180) with (acos c) by (field; lra). apply cos_acos. exact H. Qed.
Lemma map_round : forall t, map_ok t -> exists d t', zTerraFPrintZTK t = Some d /\ zTerraFromZTK d = ROk t' /\ same_map t t' /\ all_fresh t'.
Proof.
  intros t (HX & HY & DX & DY & HZ & HG & MX & MY). rewrite print_lines by exact HG.
  destruct (map_lines (xmin t) (ymin t) (tdx t) (tdy t) (nx t) (ny t) (zmin t) (zmax t) (th_var t) (zRad2Deg (acos (th_grd t))) (th_res t) (nodes_of t) DX DY HX HY) as (t' & E & A1 & A2 & A3 & A4 & A5 & A6 & A7 & A8 & A9 & A10 & A11 & A12 & A13 & AF & AG).
  { apply Forall_forall. intros g I. apply nodes_in in I. tauto. }
  eexists. exists t'. split; [reflexivity|]. split; [exact E|]. split; [|exact AF]. unfold same_map. rewrite Rmin_left in A9 by exact HZ. rewrite Rmax_right in A10 by exact HZ. rewrite deg_back in A12 by exact HG.
  unfold zTerraX, zTerraY in A7, A8. rewrite A1, A3 in A7. rewrite A2, A4 in A8. rewrite A7, A8.
  do 12 (split; [congruence|]). split; [congruence|].
  intros i j Hi Hj. destruct (AG i j Hi Hj) as (c & G & S1 & _). exists (grid t i j), c. split; [unfold zTerraGrid; replace (valid t i j) with true; [reflexivity|symmetry; apply valid_iff; tauto]|]. split; [exact G|].
  destruct (S1 (node_of t i j)) as (B1 & B2 & B3 & B4); [|cbn in *; tauto].
  apply last_unique; [intros g I; apply nodes_in in I; tauto|]. exists (node_of t i j). split; [|split; reflexivity].
  unfold nodes_of. apply in_flat_map. exists i. split; [apply in_indices; exact Hi|]. apply in_map. apply in_indices. exact Hj.
Qed.
(** what was read is written the same again *)
Lemma map_again : forall t d t', map_ok t -> zTerraFPrintZTK t = Some d -> zTerraFromZTK d = ROk t' -> zTerraFPrintZTK t' = Some d /\ map_ok t'.
Proof.
  intros t d t' OK P Rd. destruct (map_round t OK) as (d1 & t1 & P1 & R1 & SM & _). rewrite P in P1. injection P1 as <-. rewrite Rd in R1. injection R1 as <-.
  destruct SM as (A1 & A2 & A3 & A4 & A5 & A6 & A7 & A8 & A9 & A10 & A11 & A12 & A13 & AG). pose proof OK as (HX & HY & DX & DY & HZ & HG & MX & MY).
  rewrite print_lines in P by exact HG. split.
  - rewrite <- P. rewrite print_lines by (rewrite A10; exact HG). rewrite A1, A3, A5, A6, A7, A8, A9, A10, A11, A12, A13. apply f_equal. apply f_equal. apply f_equal. unfold nodes_of. rewrite A12, A13.
    rewrite !flat_map_concat_map. f_equal. apply map_ext_in. intros i Ii. apply map_ext_in. intros j Ij. apply in_indices in Ii, Ij.
    destruct (AG i j Ii Ij) as (c & c' & G & G' & B1 & B2 & B3 & B4). unfold zTerraGrid in G, G'. destruct (valid t i j); [|discriminate]. destruct (valid t' i j); [|discriminate]. injection G as <-. injection G' as <-. unfold node_of. congruence.
  - unfold map_ok. rewrite A1, A2, A3, A4, A5, A6, A7, A8, A10, A12, A13. exact OK.
Qed.
(** ** What is lost *)
Lemma map_height : forall t d t' i j x y, map_ok t -> zTerraFPrintZTK t = Some d -> zTerraFromZTK d = ROk t' ->
  0 < tdx t -> 0 < tdy t -> in_square t i j x y -> (0 <= i < nx t - 1)%Z -> (0 <= j < ny t - 1)%Z ->
  (forall a b, (i <= a <= i + 1)%Z -> (j <= b <= j + 1)%Z -> 0 < tvar (grid t a b)) -> zTerraZ t' x y = Some (Some 0).
Proof.
  intros t d t' i j x y OK P Rd DX DY SQ Hi Hj V. destruct (map_round t OK) as (d1 & t1 & P1 & R1 & SM & FR). rewrite P in P1. injection P1 as <-. rewrite Rd in R1. injection R1 as <-.
  pose proof SM as (A1 & A2 & A3 & A4 & A5 & A6 & A7 & A8 & A9 & A10 & A11 & A12 & A13 & AG). destruct OK as (HX & HY & _ & _ & HZ & _).
  assert (VV : forall a b, (i <= a <= i + 1)%Z -> (j <= b <= j + 1)%Z -> valid t' a b = true) by (intros a b Ha Hb; apply valid_iff; rewrite A12, A13; lia).
  destruct (terra_height t' i j x y) as (z & E & B & _).
  - rewrite A7. exact DX.
  - rewrite A8. exact DY.
  - rewrite A5, A6. exact HZ.
  - unfold in_square, zTerraX, zTerraY. rewrite A1, A3, A7, A8. exact SQ.
  - apply VV; lia.
  - apply VV; lia.
  - intros a b Ha Hb. destruct (AG a b) as (c & c' & G & G' & _ & _ & B3 & _); [lia|lia|]. unfold zTerraGrid in G, G'. rewrite VV in G' by assumption. destruct (valid t a b); [|discriminate]. injection G as <-. injection G' as <-. rewrite B3. apply V; assumption.
  - rewrite E. do 2 f_equal. destruct (B 0 0); [|lra]. intros a b Ha Hb. destruct (FR a b (grid t' a b)) as (F & _); [unfold zTerraGrid; rewrite VV by assumption; reflexivity|]. rewrite F. unfold plane_z. cbn. lra.
Qed.
Lemma map_travs : forall t d t' i j a b c, map_ok t -> zTerraFPrintZTK t = Some d -> zTerraFromZTK d = ROk t' ->
  (0 <= i < nx t)%Z -> (0 <= j < ny t)%Z -> (0 <= a < nx t)%Z -> (0 <= b < ny t)%Z -> (Z.abs (a - i) <= 1)%Z -> (Z.abs (b - j) <= 1)%Z -> (a, b) <> (i, j) ->
  th_res t < Rabs (tz (grid t i j)) -> zTerraGrid (zTerraCheckTravs t') i j = Some c -> ttravs c = false.
Proof.
  intros t d t' i j a b c OK P Rd Hi Hj Ha Hb Da Db NE TH G. destruct (map_round t OK) as (d1 & t1 & P1 & R1 & SM & FR). rewrite P in P1. injection P1 as <-. rewrite Rd in R1. injection R1 as <-.
  pose proof SM as (A1 & A2 & A3 & A4 & A5 & A6 & A7 & A8 & A9 & A10 & A11 & A12 & A13 & AG).
  assert (V : valid t' i j = true) by (apply valid_iff; rewrite A12, A13; lia). assert (V2 : valid t' a b = true) by (apply valid_iff; rewrite A12, A13; lia).
  destruct (ttravs c) eqn:T; [|reflexivity]. exfalso. apply (terra_travs t' i j c V G) in T. destruct T as (_ & _ & T).
  set (g := grid t' a b). specialize (T a b (TC (tz g) (tnorm g) (tvar g) (zTerraCheckGridTravs t' a b) (tprm g) (tS g) (tnp g)) Da Db NE).
  destruct (FR a b g) as (F & _); [unfold zTerraGrid; rewrite V2; reflexivity|]. cbn [tprm] in T. rewrite F in T.
  assert (X : zTerraGrid (zTerraCheckTravs t') a b = Some (TC (tz g) (tnorm g) (tvar g) (zTerraCheckGridTravs t' a b) (tprm g) (tS g) (tnp g))).
  { unfold zTerraGrid, zTerraCheckTravs, with_grid, valid in *. cbn [grid nx ny]. rewrite V2. reflexivity. }
  rewrite F in X. specialize (T X). unfold plane_z in T. cbn [vx vy vz] in T. 
  assert (E : tz c = tz (grid t i j)).
  { unfold zTerraGrid, zTerraCheckTravs, with_grid, valid in *. cbn [grid nx ny] in G. rewrite V in G. injection G as <-. cbn [tz]. destruct (AG i j Hi Hj) as (c1 & c2 & G1 & G2 & B1 & _).
    unfold zTerraGrid, valid in G1, G2. rewrite V in G2. injection G2 as <-. destruct (_ && _)%bool in G1; [|discriminate]. injection G1 as <-. exact B1. }
  rewrite E, A11 in T. replace (0 * zTerraX t' i + 0 * zTerraY t' j + 0 - tz (grid t i j)) with (- tz (grid t i j)) in T by lra. rewrite Rabs_Ropp in T. lra.
Qed.

(** How deep two convex sets overlap: the whole function. *)
From Verif Require Import FactsElem FactsGJK4 FactsGJK5.
From Verif Require Export FactsDepth3.
From Coq Require Import List Lra Lia.
Import ListNotations.
Open Scope R_scope.

Lemma insert_all {A} (g : A -> pslot) : forall l a, fold_left (fun sl x => gjkSlotListInsert sl (g x)) l a = a ++ map g l.
Proof. induction l as [|x l IH]; intros a; cbn [fold_left map]; [symmetry; apply app_nil_r|]. rewrite IH. unfold gjkSlotListInsert. rewrite <- app_assoc. reflexivity. Qed.
Lemma add_good l1 l2 near v sl sl' : gjkPDAddPoint l1 l2 near v sl = Some (Some sl') -> Forall (good_slot l1 l2) sl -> Forall (good_slot l1 l2) sl'.
Proof.
  unfold gjkPDAddPoint. destruct (gjkSupportMap l1 l2 v) as [((p1, p2), w)|] eqn:E; [|discriminate]. destruct (near w) as [(d, cp)|]; [|discriminate]. destruct (zIsTiny d); [discriminate|]. intros K F. injection K as <-.
  apply support_mem in E as (_ & I1 & I2 & ->). apply Forall_app. split; [exact F|]. constructor; [|constructor]. exists p1, p2. auto.
Qed.
Lemma then_good (l1 l2 : list vec3) o k sl' : andThen o k = Some (Some sl') -> exists sl, o = Some (Some sl) /\ k sl = Some (Some sl').
Proof. destruct o as [[sl|]|]; cbn; try discriminate. intros E. exists sl. auto. Qed.
Lemma init_good hull l1 l2 s sl : (forall x, List.In x (firstn (sx_n s) (sx_slot s)) -> exists p1 p2, sl_p x = Some (p1, p2) /\ List.In p1 l1 /\ List.In p2 l2 /\ sl_w x = vsub p1 p2) ->
  gjkPDInit hull l1 l2 s = Some (Some sl) -> Forall (good_slot l1 l2) sl.
Proof.
  intros H. unfold gjkPDInit. rewrite insert_all. cbn [app].
  assert (F : Forall (good_slot l1 l2) (map (fun x => (sl_w x, sl_p x)) (firstn (sx_n s) (sx_slot s)))).
  { apply Forall_forall. intros y Hy. apply in_map_iff in Hy as (x & <- & Hx). destruct (H x Hx) as (p1 & p2 & -> & I1 & I2 & ->). exists p1, p2. auto. }
  destruct (sx_n s) as [|[|[|[|n]]]]; try discriminate.
  - destruct (zVec3DOrthoSpace _) as [(v1, v2)|]; [|discriminate]. intros E.
    apply (then_good l1 l2) in E as (sa & Ea & E). apply (then_good l1 l2) in E as (sb & Eb & E). apply (then_good l1 l2) in E as (sc & Ec & E). apply (then_good l1 l2) in E as (sd & Ed & E).
    apply add_good in Ea; [|exact F]. apply add_good in Eb; [|exact Ea]. apply add_good in Ec; [|exact Eb]. apply add_good in Ed; [|exact Ec].
    destruct (hull (map fst sd)) as [fs|]; [|discriminate]. destruct (forallb _ fs); [|discriminate]. injection E as <-. exact Ed.
  - destruct (zTri3DCreate _ _ _) as ([|] & tri); [|discriminate]. intros E. apply (then_good l1 l2) in E as (sa & Ea & E). apply add_good in Ea; [|exact F]. apply add_good in E; assumption.
  - intros E. injection E as <-. exact F.
Qed.
Lemma add_len l1 l2 near v sl sl' : gjkPDAddPoint l1 l2 near v sl = Some (Some sl') -> length sl' = (length sl + 1)%nat.
Proof. unfold gjkPDAddPoint. destruct (gjkSupportMap l1 l2 v) as [((p1, p2), w)|]; [|discriminate]. destruct (near w) as [(d, cp)|]; [|discriminate]. destruct (zIsTiny d); [discriminate|]. intros K. injection K as <-. unfold gjkSlotListInsert. rewrite app_length. reflexivity. Qed.
Lemma init_len hull l1 l2 s sl : length (sx_slot s) = 4%nat -> gjkPDInit hull l1 l2 s = Some (Some sl) -> (4 <= length sl)%nat.
Proof.
  intros LS. unfold gjkPDInit. rewrite insert_all. cbn [app].
  assert (F : @length pslot (map (fun x => (sl_w x, sl_p x)) (firstn (sx_n s) (sx_slot s))) = Nat.min (sx_n s) 4) by (rewrite map_length, firstn_length, LS; reflexivity).
  remember (map _ (firstn (sx_n s) (sx_slot s))) as st eqn:Est in *. clear Est.
  destruct (sx_n s) as [|[|[|[|n]]]]; try discriminate.
  - destruct (zVec3DOrthoSpace _) as [(v1, v2)|]; [|discriminate]. intros E.
    apply (then_good l1 l2) in E as (sa & Ea & E). apply (then_good l1 l2) in E as (sb & Eb & E). apply (then_good l1 l2) in E as (sc & Ec & E). apply (then_good l1 l2) in E as (sd & Ed & E).
    apply add_len in Ea, Eb, Ec, Ed. destruct (hull (map fst sd)) as [fs|]; [|discriminate]. destruct (forallb _ fs); [|discriminate]. injection E as <-. cbn in F. unfold pslot in *. lia.
  - destruct (zTri3DCreate _ _ _) as ([|] & tri); [|discriminate]. intros E. apply (then_good l1 l2) in E as (sa & Ea & E). apply add_len in Ea, E. cbn in F. unfold pslot in *. lia.
  - intros E. injection E as <-. cbn in F. unfold pslot in *. lia.
Qed.
Lemma nonempty_slots l1 l2 sl : Forall (good_slot l1 l2) sl -> convex_hull (map fst sl) v3zero -> l1 <> [] /\ l2 <> [] /\ exists w, List.In w (map fst sl).
Proof.
  intros F C. assert (K : forall d, convex_hull (map fst sl) d -> sl <> []). { intros d X. induction X as [p Hp|]; [|assumption]. intros ->. destruct Hp. }
  specialize (K _ C). destruct sl as [|s r]; [congruence|]. apply Forall_cons_iff in F as [(p1 & p2 & -> & I1 & I2) _]. split; [intros ->; destruct I1|]. split; [intros ->; destruct I2|]. exists (vsub p1 p2). left. reflexivity.
Qed.
Lemma ready_start l1 l2 sl : Forall (good_slot l1 l2) sl -> NoDup (map fst sl) -> convex_hull (map fst sl) v3zero -> (4 <= length sl)%nat -> pd_ready l1 l2 sl v3zero.
Proof.
  intros F N C L4. destruct (nonempty_slots _ _ _ F C) as (_ & _ & w & W). split; [exact F|]. split; [exact N|]. split; [exact C|]. split; [exact L4|]. exists w. split; [exact W|]. intros x _. right. vring.
Qed.
Lemma pd_depth : forall hull l1 l2 M fuel s sl c1 c2, (forall x, difference l1 l2 x -> norm x <= M) -> right_hull (fun l => option_map (map corners) (hull l)) l1 l2 -> distinct_differences l1 l2 -> length (sx_slot s) = 4%nat ->
  (forall x, List.In x (firstn (sx_n s) (sx_slot s)) -> exists p1 p2, sl_p x = Some (p1, p2) /\ List.In p1 l1 /\ List.In p2 l2 /\ sl_w x = vsub p1 p2) ->
  gjkPDInit hull l1 l2 s = Some (Some sl) -> NoDup (map fst sl) -> convex_hull (map fst sl) v3zero ->
  gjkPD hull l1 l2 fuel s = Some (Some (c1, c2)) -> convex_hull l1 c1 /\ convex_hull l2 c2 /\ depth_vector (4 * zTOL * M) l1 l2 (vsub c1 c2).
Proof.
  intros hull l1 l2 M fuel s sl c1 c2 B H G LS OK E ND OR. pose proof (init_len _ _ _ _ _ LS E) as L4. pose proof (init_good _ _ _ _ _ OK E) as F. destruct (nonempty_slots _ _ _ F OR) as (N1 & N2 & _). unfold gjkPD. rewrite E.
  pose proof (loop_result hull l1 l2 M N1 N2 H G B fuel sl v3zero (ready_start _ _ _ F ND OR L4)) as L. destruct (gjkPDLoop hull l1 l2 fuel sl v3zero) as [| | |sl' f v]; try discriminate. destruct L as (L & _).
  destruct (pair_result _ _ _ _ _ _ G L) as (d1 & d2 & -> & A1 & A2 & D). intros K. injection K as <- <-. auto.
Qed.
Lemma hull_found hull l1 l2 : l1 <> [] -> l2 <> [] -> right_hull (fun l => option_map (map corners) (hull l)) l1 l2 -> distinct_differences l1 l2 -> forall M, (forall x, difference l1 l2 x -> norm x <= M) -> forall L0,
  (forall l, NoDup l -> (4 <= length l)%nat -> (forall x, List.In x l -> difference l1 l2 x) -> incl L0 l -> hull l <> None) ->
  forall fuel sl vt, pd_ready l1 l2 sl vt -> incl L0 (map fst sl) -> gjkPDLoop hull l1 l2 fuel sl vt <> PFail.
Proof.
  intros N1 N2 H G M B L0 HT. induction fuel as [|fuel IH]; intros sl vt RD IN; cbn [gjkPDLoop]; [discriminate|]. pose proof RD as (GS & ND & _ & L4 & _).
  destruct (hull (map fst sl)) as [fs|] eqn:E; [|exfalso; apply (HT (map fst sl)); auto; [rewrite map_length; exact L4|apply (good_diff _ _ _ GS)]].
  destruct (surface_step hull l1 l2 H sl vt fs RD E) as (v & f & -> & _). destruct (zVec3DEqual v vt); [discriminate|]. zvg. destruct (support_max l1 l2 N1 N2 v) as (p1 & p2 & -> & I1 & I2 & SM).
  assert (DW : difference l1 l2 (vsub p1 p2)) by (exists p1, p2; auto).
  match goal with |- context [existsb ?g sl] => destruct (existsb g sl) eqn:KN end; [discriminate|].
  assert (NI : ~ List.In (vsub p1 p2) (map fst sl)). { intros K. apply (known_in l1 l2 G sl _ GS DW) in K. exact (Bool.diff_true_false (eq_trans (eq_sym K) KN)). }
  apply IH; [apply (ready_insert l1 l2 sl vt); assumption|]. unfold gjkSlotListInsert. rewrite map_app. apply incl_appl. exact IN.
Qed.
Lemma pd_found : forall hull l1 l2 fuel s sl, right_hull (fun l => option_map (map corners) (hull l)) l1 l2 -> distinct_differences l1 l2 -> length (sx_slot s) = 4%nat ->
  (forall x, List.In x (firstn (sx_n s) (sx_slot s)) -> exists p1 p2, sl_p x = Some (p1, p2) /\ List.In p1 l1 /\ List.In p2 l2 /\ sl_w x = vsub p1 p2) ->
  gjkPDInit hull l1 l2 s = Some (Some sl) -> NoDup (map fst sl) -> convex_hull (map fst sl) v3zero ->
  (forall l, NoDup l -> (4 <= length l)%nat -> (forall x, List.In x l -> difference l1 l2 x) -> incl (map fst sl) l -> hull l <> None) -> (length l1 * length l2 < fuel)%nat ->
  exists c1 c2, gjkPD hull l1 l2 fuel s = Some (Some (c1, c2)).
Proof.
  intros hull l1 l2 fuel s sl H G LS OK E ND OR HT LF. pose proof (init_len _ _ _ _ _ LS E) as L4. pose proof (init_good _ _ _ _ _ OK E) as F. destruct (nonempty_slots _ _ _ F OR) as (N1 & N2 & _).
  assert (BD : exists M, forall x, difference l1 l2 x -> norm x <= M).
  { destruct (FactsGJK4.bounded l1) as (b1 & B1). destruct (FactsGJK4.bounded l2) as (b2 & B2). exists (b1 + b2). intros x (a & b & Ia & Ib & ->). specialize (B1 a Ia). specialize (B2 b Ib). replace (vsub a b) with (vadd a (vscale (-1) b)) by (apply vec3_ext; vring). eapply Rle_trans; [apply norm_triangle|]. rewrite norm_scale, Rabs_left by lra. lra. }
  destruct BD as (M & B). unfold gjkPD. rewrite E. pose proof (ready_start _ _ _ F ND OR L4) as RD.
  pose proof (loop_result hull l1 l2 M N1 N2 H G B fuel sl v3zero RD) as L. pose proof (loop_enough hull l1 l2 fuel sl v3zero LF) as T. pose proof (hull_found hull l1 l2 N1 N2 H G M B (map fst sl) HT fuel sl v3zero RD (incl_refl _)) as NF.
  destruct (gjkPDLoop hull l1 l2 fuel sl v3zero) as [| | |sl' f v]; [congruence|destruct L|congruence|]. destruct L as (L & _). destruct (pair_result _ _ _ _ _ _ G L) as (d1 & d2 & -> & _). exists d1, d2. reflexivity.
Qed.
(** ** From the proximity search *)
Lemma full_filter {A} (g : A -> bool) l : length (filter g l) = length l -> filter g l = l /\ Forall (fun x => g x = true) l.
Proof.
  assert (LE : forall l, (length (filter g l) <= length l)%nat). { induction l0 as [|x l0 IH]; cbn; [lia|]. destruct (g x); cbn; lia. }
  induction l as [|x l IH]; cbn [filter length]; [auto|]. specialize (LE l). destruct (g x) eqn:E; cbn [length]; intros K; [|lia]. destruct IH as [-> F]; [lia|]. auto.
Qed.
Lemma indep_nodup ws : affine_indep ws -> (length ws = 4)%nat -> NoDup ws.
Proof.
  intros D L. destruct ws as [|a [|b [|c [|d [|? ?]]]]]; try discriminate L. pose proof (indep4 _ _ _ _ D) as V.
  assert (K : forall x y z, vol6 x y z z = 0 /\ vol6 x y z x = 0 /\ vol6 x y z y = 0 /\ vol6 x x y z = 0 /\ vol6 x y x z = 0 /\ vol6 x y y z = 0) by (intros; repeat split; unfold vol6, det3v; spec_unfold_g; ring).
  repeat constructor; cbn [List.In]; intros X; decompose [or] X; subst; try contradiction; apply V; apply (K _ _ _).
Qed.
Lemma full_start l1 l2 s v g : inv l1 l2 s v g -> sx_n s = 4%nat ->
  (forall x, List.In x (firstn (sx_n s) (sx_slot s)) -> exists p1 p2, sl_p x = Some (p1, p2) /\ List.In p1 l1 /\ List.In p2 l2 /\ sl_w x = vsub p1 p2) /\
  NoDup (map sl_w (sx_slot s)) /\ convex_hull (map sl_w (sx_slot s)) v3zero /\ forall hull, gjkPDInit hull l1 l2 s = Some (Some (map (fun x => (sl_w x, sl_p x)) (sx_slot s))).
Proof.
  intros I N. pose proof (inv_full _ _ _ _ _ I N) as V. pose proof (inv_len _ _ _ _ _ I) as L. pose proof (inv_n _ _ _ _ _ I) as NN. rewrite N in NN.
  destruct (full_filter sw_w (sx_slot s)) as [FE FA]; [lia|]. pose proof (inv_wy _ _ _ _ _ I) as WY. pose proof (inv_ok _ _ _ _ _ I) as OK. rewrite N, <- L, firstn_all. split; [|split; [|split]].
  - intros x Hx. rewrite Forall_forall in FA, WY. unfold ok_slots in OK. rewrite Forall_forall in OK. apply (OK x Hx), (WY x Hx), (FA x Hx).
  - apply indep_nodup; [|rewrite map_length; exact L]. pose proof (inv_indep _ _ _ _ _ I) as D. unfold ws_of in D. rewrite FE in D. exact D.
  - rewrite <- V, (inv_v _ _ _ _ _ I). pose proof (inv_g _ _ _ _ _ I) as GG. apply hull_wsum; [|exact (inv_tot _ _ _ _ _ I)].
    assert (Q : forall (l : list slot) g', Forall2 slot_g l g' -> forall P, (forall x, List.In x l -> convex_hull P (sl_w x)) -> Forall2 (fun s p => 0 <= s /\ (s = 0 \/ convex_hull P p)) g' (map sl_w l)).
    { intros l g' X. induction X as [|x h l g' (X1 & _) X IH]; intros P HP; [constructor|]. cbn [map]. constructor; [split; [exact X1|right; apply HP; left; reflexivity]|]. apply IH. intros y Hy. apply HP. right. exact Hy. }
    apply (Q _ _ GG). intros x Hx. constructor. apply in_map. exact Hx.
  - intros hull. unfold gjkPDInit. rewrite insert_all, N, <- L, firstn_all. destruct (sx_slot s) as [|? [|? [|? [|? [|? ?]]]]]; try discriminate L. reflexivity.
Qed.
Lemma depth_tetra : forall hull l1 l2 M fuel old a b s v, nth_error l1 0 = Some a -> nth_error l2 0 = Some b -> sturdy l1 l2 -> (forall x, difference l1 l2 x -> norm x <= M) -> right_hull (fun l => option_map (map corners) (hull l)) l1 l2 -> distinct_differences l1 l2 ->
  gjkLoop fuel l1 l2 simplexInit (vsub a b) None = Done s v -> sx_n s = 4%nat ->
  (forall l, NoDup l -> (4 <= length l)%nat -> (forall x, List.In x l -> difference l1 l2 x) -> incl (map sl_w (sx_slot s)) l -> hull l <> None) -> (length l1 * length l2 < fuel)%nat ->
  exists c1 c2, zGJKDepth hull l1 l2 fuel old = Some (c1, c2, true) /\ convex_hull l1 c1 /\ convex_hull l2 c2 /\ depth_vector (4 * zTOL * M) l1 l2 (vsub c1 c2).
Proof.
  intros hull l1 l2 M fuel old a b s v A A' ST B H G E N HT LF. destruct l1 as [|a' l1]; [discriminate|]. destruct l2 as [|b' l2]; [discriminate|]. injection A as ->. injection A' as ->.
  pose proof (loop_ok (a :: l1) (b :: l2) ltac:(discriminate) ltac:(discriminate) ST fuel simplexInit (vsub a b) None (or_introl (conj eq_refl eq_refl))) as L. rewrite E in L.
  destruct (finished_pair _ _ _ _ L) as (d1 & d2 & _ & _ & P & _). destruct L as (g & I & _). destruct (full_start _ _ _ _ _ I N) as (OK & ND & OR & IN). specialize (IN hull).
  assert (MF : map fst (map (fun x => (sl_w x, sl_p x)) (sx_slot s)) = map sl_w (sx_slot s)) by (rewrite map_map; reflexivity). rewrite <- MF in ND, OR, HT.
  destruct (pd_found hull _ _ fuel s _ H G (inv_len _ _ _ _ _ I) OK IN ND OR HT LF) as (c1 & c2 & K). exists c1, c2. split; [|exact (pd_depth hull _ _ M fuel s _ c1 c2 B H G (inv_len _ _ _ _ _ I) OK IN ND OR K)].
  unfold zGJKDepth. zvg. rewrite E, P. replace (gjkCheck old s) with true by (unfold gjkCheck; rewrite N; reflexivity). rewrite K. reflexivity.
Qed.
(** without a depth the pair of zGJK is left *)
Lemma depth_false : forall hull l1 l2 fuel old c1 c2, zGJKDepth hull l1 l2 fuel old = Some (c1, c2, false) -> exists hit, zGJK fuel old l1 l2 = Some (c1, c2, hit).
Proof.
  intros hull l1 l2 fuel old c1 c2. unfold zGJKDepth, zGJK. destruct l1 as [|a l1]; [discriminate|]. destruct l2 as [|b l2]; [discriminate|]. destruct (gjkLoop _ _ _ _ _ _) as [| |s v]; try discriminate.
  destruct (gjkPair (sx_slot s) v3zero v3zero) as [(d1, d2)|]; [|discriminate]. destruct (gjkCheck old s).
  - destruct (gjkPD hull (a :: l1) (b :: l2) fuel s) as [[(e1, e2)|]|]; try discriminate. intros E. injection E as <- <-. exists true. reflexivity.
  - intros E. injection E as <- <-. exists false. reflexivity.
Qed.
(** whatever the hull is, the loop ends *)
Lemma depth_ends : forall hull l1 l2 fuel fuel' sl v, (length l1 * length l2 < fuel)%nat -> (fuel <= fuel')%nat -> gjkPDLoop hull l1 l2 fuel sl v <> PFuel /\ gjkPDLoop hull l1 l2 fuel' sl v = gjkPDLoop hull l1 l2 fuel sl v.
Proof.
  intros hull l1 l2 fuel fuel' sl v L LE. pose proof (loop_enough hull l1 l2 fuel sl v L) as T. split; [exact T|]. clear L. revert fuel' LE sl v T. induction fuel as [|fuel IH]; intros fuel' LE sl v T; [exfalso; apply T; reflexivity|].
  destruct fuel' as [|fuel']; [lia|]. cbn [gjkPDLoop] in *. destruct (hull (map fst sl)) as [fs|]; [|reflexivity]. destruct (gjkPH3DClosest fs) as [((d, w), f)|]; [|reflexivity]. destruct (zVec3DEqual w v); [reflexivity|].
  destruct (gjkSupportMap l1 l2 (zVec3DRev w)) as [((p1, p2), x)|]; [|reflexivity]. match goal with |- context [existsb ?g sl] => destruct (existsb g sl) end; [reflexivity|]. apply IH; [lia|exact T].
Qed.

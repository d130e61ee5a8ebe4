(** Unification of octants. *)
From Verif Require Import Base Spec SpecGeom SpecBox SpecData SpecOctree ModelVec ModelBox ModelData ModelOctree FactsVec FactsAlg FactsBox FactsData FactsData2 FactsTree FactsOctree FactsOctree2 FactsOctree3.
From Coq Require Import Lia Lra Permutation FunctionalExtensionality.
Open Scope R_scope.

Notation unify o := (fst (zVec3DOctantUnify o)).
Notation ubit sub i := (if sub_null (sub i) then false else snd (zVec3DOctantUnify (sub i))).
Lemma unify_null o : sub_null (unify o) = sub_null o.
Proof. destruct o as [|r c pts sub]; [reflexivity|]. cbn [zVec3DOctantUnify]. destruct (existsb _ octs), (forallb _ octs); reflexivity. Qed.
Lemma flat_ext {A B} (f g : A -> list B) l : (forall x, List.In x l -> f x = g x) -> flat_map f l = flat_map g l.
Proof. induction l as [|a l IH]; intros H; [reflexivity|]. cbn [flat_map]. rewrite H by (left; reflexivity). f_equal. apply IH. intros x Hx. apply H. right. exact Hx. Qed.
Lemma unify_lwf e o : forall reg, lwf e reg o -> lwf e reg (unify o).
Proof.
  induction o as [|r c pts sub IH]; intros reg W; [exact I|]. destruct W as (-> & P & F & L & SUB). cbn [zVec3DOctantUnify].
  assert (W' : lwf e reg (Oct reg c pts (fun i => unify (sub i)))). { cbn [lwf]. repeat match goal with |- _ /\ _ => split end; auto. intros NE i. rewrite (L NE). reflexivity. }
  destruct (negb (existsb _ octs)); [exact W'|]. destruct (negb (forallb _ octs)); [exact W'|]. cbn [fst lwf]. repeat match goal with |- _ /\ _ => split end; auto; [|intros; exact I].
  unfold merge_points. apply Forall_app. split; [exact F|]. apply Forall_forall. intros p Hp. apply in_flat_map in Hp. destruct Hp as (i & _ & Hp). apply (subreg_slack e reg i p P). apply (lwf_in e (unify (sub i))); [apply IH; apply SUB|]. destruct (unify (sub i)); [destruct Hp|]. cbn [opts]. apply in_or_app. left. exact Hp.
Qed.
Lemma kept_flat {A B} (f g : A -> list B) l : (forall x, List.In x l -> exists lost, Permutation (f x ++ lost) (g x)) -> exists lost, Permutation (flat_map f l ++ lost) (flat_map g l).
Proof.
  induction l as [|a l IH]; intros H; [exists []; constructor|]. destruct (H a (or_introl eq_refl)) as (l1 & P1). destruct IH as (l2 & P2); [intros x Hx; apply H; right; exact Hx|]. exists (l1 ++ l2). cbn [flat_map]. rewrite <- P1, <- P2.
  rewrite <- !app_assoc. apply Permutation_app_head. rewrite !app_assoc. apply Permutation_app_tail. apply Permutation_app_comm.
Qed.
Lemma unify_loses o : exists lost, Permutation (opts (unify o) ++ lost) (opts o).
Proof.
  induction o as [|r c pts sub IH]; [exists []; constructor|]. cbn [zVec3DOctantUnify].
  assert (K : exists lost, Permutation (opts (Oct r c pts (fun i => unify (sub i))) ++ lost) (opts (Oct r c pts sub))).
  { destruct (kept_flat (fun i => opts (unify (sub i))) (fun i => opts (sub i)) octs) as (l & Pl); [intros i _; apply IH|]. exists l. cbn [opts]. rewrite <- app_assoc. apply Permutation_app_head. exact Pl. }
  destruct (negb (existsb _ octs)); [exact K|]. destruct (negb (forallb _ octs)); [exact K|]. cbn [fst opts]. rewrite (flat_none (fun i => opts (no_sub i))) by reflexivity. rewrite app_nil_r. unfold merge_points.
  destruct (kept_flat (fun i => o_points (unify (sub i))) (fun i => opts (sub i)) octs) as (l & Pl).
  { intros i _. destruct (IH i) as (l & Pl). destruct (unify (sub i)) as [|r' c' p' s']; [exists (opts (sub i)); apply Permutation_refl|]. cbn [opts] in Pl. cbn [o_points]. exists (flat_map (fun j => opts (s' j)) octs ++ l). rewrite app_assoc. exact Pl. }
  exists l. rewrite <- app_assoc. apply Permutation_app_head. exact Pl.
Qed.
Section Shallow.
Variables (e res : R).
Lemma unify0 reg o : owf e res true reg o -> zVec3DOctantIsSmallest reg res = true -> opts (unify o) = opts o /\ o_points (unify o) = opts o.
Proof.
  intros W SM. destruct o as [|r c pts sub]; [split; reflexivity|]. destruct W as (-> & _ & _ & _ & L & _). pose proof (L SM) as N. cbn [zVec3DOctantUnify].
  assert (EB : existsb (fun i => ubit sub i) octs = false). { apply not_true_is_false. intros H. apply existsb_exists in H. destruct H as (i & _ & H). rewrite N in H. discriminate. } rewrite EB. cbn [negb fst opts o_points].
  rewrite !(flat_none _ octs), app_nil_r by (intros i _; rewrite N; reflexivity). split; reflexivity.
Qed.
Lemma unify1 reg o : owf e res true reg o -> fits 1 res reg -> opts (unify o) = opts o /\ (snd (zVec3DOctantUnify o) = true -> o_points (unify o) = opts o).
Proof.
  intros W F. destruct o as [|r c pts sub]; [split; [reflexivity|discriminate]|]. destruct (zVec3DOctantIsSmallest reg res) eqn:SM. { destruct (unify0 reg _ W SM) as (A & B). auto. }
  destruct W as (-> & _ & P & _ & _ & EM & SUB). rewrite (EM eq_refl SM) in *. cbn [zVec3DOctantUnify].
  assert (U : forall i, opts (unify (sub i)) = opts (sub i) /\ o_points (unify (sub i)) = opts (sub i)) by (intros i; apply (unify0 (subreg reg i)); [apply SUB|apply fits0; apply fits_sub; auto]).
  assert (T : forall i, sub_null (sub i) = false -> snd (zVec3DOctantUnify (sub i)) = true).
  { intros i N. specialize (SUB i). pose proof (fits0 _ _ (fits_sub 0 res reg i P F)) as SMi. destruct (sub i) as [|r' c' p' s']; [discriminate|]. destruct SUB as (-> & _ & _ & _ & L & _). pose proof (L SMi) as N'. cbn [zVec3DOctantUnify].
    assert (EB : existsb (fun i => ubit s' i) octs = false). { apply not_true_is_false. intros H. apply existsb_exists in H. destruct H as (j & _ & H). rewrite N' in H. discriminate. } rewrite EB. reflexivity. }
  destruct (existsb (fun i => ubit sub i) octs) eqn:EB; cbn [negb].
  - destruct (forallb (fun i => ubit sub i) octs) eqn:FB; cbn [negb fst snd opts o_points].
    + rewrite (flat_none (fun i => opts (no_sub i))), app_nil_r by reflexivity. unfold merge_points. cbn [app]. rewrite (flat_ext (fun i => o_points (unify (sub i))) (fun i => opts (sub i))) by (intros i _; apply U). split; [|intros _]; reflexivity.
    + split; [|discriminate]. cbn [app]. apply flat_ext. intros i _. apply U.
  - assert (N : forall i, sub i = ONull). { intros i. destruct (sub_null (sub i)) eqn:N; [destruct (sub i); [reflexivity|discriminate]|]. exfalso. assert (X : existsb (fun i => ubit sub i) octs = true); [|congruence]. apply existsb_exists. exists i. split; [apply octs_all|]. rewrite N. apply T. exact N. }
    cbn [fst snd opts o_points]. rewrite !(flat_none _ octs) by (intros i _; rewrite N; reflexivity). split; reflexivity.
Qed.
Lemma unify2 reg o : owf e res true reg o -> fits 2 res reg -> opts (unify o) = opts o.
Proof.
  intros W F. destruct o as [|r c pts sub]; [reflexivity|]. destruct (zVec3DOctantIsSmallest reg res) eqn:SM. { destruct (unify0 reg _ W SM) as (A & B). auto. }
  destruct W as (-> & _ & P & _ & _ & EM & SUB). rewrite (EM eq_refl SM) in *. cbn [zVec3DOctantUnify].
  assert (U : forall i, opts (unify (sub i)) = opts (sub i) /\ (snd (zVec3DOctantUnify (sub i)) = true -> o_points (unify (sub i)) = opts (sub i))) by (intros i; apply (unify1 (subreg reg i)); [apply SUB|apply fits_sub; auto]).
  assert (K : flat_map (fun i => opts (unify (sub i))) octs = flat_map (fun i => opts (sub i)) octs) by (apply flat_ext; intros i _; apply U).
  destruct (existsb (fun i => ubit sub i) octs) eqn:EB; cbn [negb]; [|cbn [fst opts]; rewrite K; reflexivity].
  destruct (forallb (fun i => ubit sub i) octs) eqn:FB; cbn [negb fst opts]; [|rewrite K; reflexivity].
  rewrite (flat_none (fun i => opts (no_sub i))), app_nil_r by reflexivity. unfold merge_points. cbn [app]. apply flat_ext. intros i Hi. apply U. rewrite forallb_forall in FB. specialize (FB i Hi). destruct (sub_null (sub i)); [discriminate|exact FB].
Qed.
End Shallow.
(** what can be relied on: some of the points are kept *)
Lemma octree_unify x1 y1 z1 x2 y2 z2 res h : 0 <= res -> sane h ->
  (forall p, List.In p (inserted h) -> betw x1 x2 (vx p) /\ betw y1 y2 (vy p) /\ betw z1 z2 (vz p)) ->
  exists n, forall fuel, (n <= fuel)%nat -> exists t, run_oops fuel (zVec3DOctreeInit x1 y1 z1 x2 y2 z2 res) h = Some t /\
  (exists kept lost, Permutation (kept ++ lost) (inserted h) /\ right_answers (zVec3DOctreeUnifyOctant t) kept) /\
  (Rabs (x2 - x1) < 4 * o_res t -> Rabs (y2 - y1) < 4 * o_res t -> Rabs (z2 - z1) < 4 * o_res t -> right_answers (zVec3DOctreeUnifyOctant t) (inserted h)).
Proof.
  intros Hr SN IN. destruct (init_ok 0 x1 y1 z1 x2 y2 z2 res Hr) as (T & O & P). set (reg := box_of x1 y1 z1 x2 y2 z2) in *.
  destruct (history_ok 0 reg h ltac:(lra)) with (t := zVec3DOctreeInit x1 y1 z1 x2 y2 z2 res) as (n & H); auto.
  { intros p Hp _. destruct (IN p Hp) as (A & B & C). apply (betw_box x1 y1 z1 x2 y2 z2); auto. }
  exists n. intros fuel L. destruct (H fuel L) as (t & R & (W & N & _) & PP). exists t. split; [exact R|]. rewrite O, app_nil_r, accept_all in PP by (intros p Hp; destruct (IN p Hp) as (A & B & C); apply (betw_box x1 y1 z1 x2 y2 z2); auto).
  pose proof (unify_lwf 0 _ reg (owf_lwf 0 _ _ reg W)) as UW. split.
  - destruct (unify_loses (o_root t)) as (lost & PL). exists (opts (unify (o_root t))), lost. split; [rewrite PL; exact PP|]. apply (lwf_answers reg); [exact UW|]. apply Permutation_refl.
  - intros DX DY DZ. apply (lwf_answers reg); [exact UW|]. cbn [o_root zVec3DOctreeUnifyOctant]. rewrite (unify2 0 (o_res t) reg); [exact PP|exact W|]. pose proof zTOL_pos as ZP.
    assert (G : forall a b, zMax a b - zMin a b = Rabs (b - a)). { intros a b. unfold zMax, zMin, Rabs. destruct (Rcase_abs (b - a)); repeat match goal with |- context [Rltb ?u ?v] => destruct (Rltb_reflect u v) end; lra. }
    unfold fits, reg, box_of, zAABox3DCreate, zAABox3DDepth, zAABox3DWidth, zAABox3DHeight. cbn [bmin bmax vx vy vz pow]. rewrite !G. lra.
Qed.
(** ** loss *)
Definition is_chain (o : octant) : Prop := exists r c i r' c' j r'' c'' p, o = Oct r c [] (set_sub no_sub i (Oct r' c' [] (set_sub no_sub j (Oct r'' c'' [p] no_sub)))).
Lemma chain_unify o : is_chain o -> sub_null o = false /\ snd (zVec3DOctantUnify o) = true /\ o_points (unify o) = [].
Proof.
  intros (r & c & i & r' & c' & j & r'' & c'' & p & ->). split; [reflexivity|].
  assert (B : forall (i : oidx) b, existsb (fun k => if sub_null (set_sub no_sub i b k) then false else snd (zVec3DOctantUnify (set_sub no_sub i b k))) octs = (if sub_null b then false else snd (zVec3DOctantUnify b))).
  { clear. intros i b. assert (X : forall k, (if sub_null (set_sub no_sub i b k) then false else snd (zVec3DOctantUnify (set_sub no_sub i b k))) = oidx_eqb i k && (if sub_null b then false else snd (zVec3DOctantUnify b))). { intros k. unfold set_sub. destruct (oidx_eqb i k); reflexivity. }
    destruct (if sub_null b then false else snd (zVec3DOctantUnify b)).
    - apply existsb_exists. exists i. split; [apply octs_all|]. rewrite X, idx_refl. reflexivity.
    - apply not_true_is_false. intros H. apply existsb_exists in H. destruct H as (k & _ & H). rewrite X, andb_false_r in H. discriminate. }
  set (leaf := Oct r'' c'' [p] no_sub). set (mid := Oct r' c' [] (set_sub no_sub j leaf)).
  assert (M : snd (zVec3DOctantUnify mid) = false).
  { unfold mid. cbn [zVec3DOctantUnify]. rewrite B. cbn [sub_null leaf]. replace (snd (zVec3DOctantUnify leaf)) with true by reflexivity. cbn [negb].
    assert (X : forallb (fun k => ubit (set_sub no_sub j leaf) k) octs = false); [|rewrite X; reflexivity].
    apply not_true_is_false. intros H. rewrite forallb_forall in H. assert (EX : exists k, k <> j) by (destruct j as [[] b d]; [exists (OI false b d)|exists (OI true b d)]; discriminate). destruct EX as (k & NK). specialize (H k (octs_all k)). rewrite set_sub_other in H by congruence. discriminate. }
  cbn [zVec3DOctantUnify]. rewrite B, M. cbn [sub_null mid negb fst snd o_points]. split; reflexivity.
Qed.
Lemma fresh_chain k reg p res : proper reg -> (forall reg', zAABox3DDepth reg' = zAABox3DDepth reg -> zVec3DOctantIsSmallest reg' res = false) -> (forall reg', zAABox3DDepth reg' = zAABox3DDepth reg / 2 -> zVec3DOctantIsSmallest reg' res = false) ->
  fits 2 res reg -> exists o, zVec3DOctantAddPoint (S (S (S k))) (Oct reg (zAABox3DCenter reg) [] no_sub) p res = Some o /\ is_chain o.
Proof.
  intros P S1 S2 F. set (i := oct_index (zAABox3DCenter reg) p). set (reg' := subreg reg i). pose proof (subreg_proper reg i P) as P'. fold reg' in P'. set (j := oct_index (zAABox3DCenter reg') p).
  assert (SM : zVec3DOctantIsSmallest (subreg reg' j) res = true) by (apply fits0, fits_sub; [exact P'|]; apply fits_sub; [exact P|exact F]).
  assert (E1 : suboctant_create reg (zAABox3DCenter reg) i = Oct reg' (zAABox3DCenter reg') [] no_sub) by (unfold reg', subreg; destruct i; reflexivity).
  assert (E2 : suboctant_create reg' (zAABox3DCenter reg') j = Oct (subreg reg' j) (zAABox3DCenter (subreg reg' j)) [] no_sub) by (unfold subreg at 1; destruct j; reflexivity).
  exists (Oct reg (zAABox3DCenter reg) [] (set_sub no_sub i (Oct reg' (zAABox3DCenter reg') [] (set_sub no_sub j (Oct (subreg reg' j) (zAABox3DCenter (subreg reg' j)) [p] no_sub))))). split; [|unfold is_chain; repeat eexists].
  cbn [zVec3DOctantAddPoint]. rewrite S1 by reflexivity. fold i. unfold zVec3DOctantAllocSuboctant at 1. cbn [no_sub sub_null]. rewrite E1. cbn [zVec3DOctantAddPoint]. rewrite S2 by (destruct (subreg_dims reg i P) as (D & _); exact D). fold j. unfold zVec3DOctantAllocSuboctant. cbn [no_sub sub_null]. rewrite E2. cbn [zVec3DOctantAddPoint]. rewrite SM. reflexivity.
Qed.
Definition corner_pts (a : R) : list vec3 := map (fun i => match i with OI xb yb zb => V3 (if xb then a else - a) (if yb then a else - a) (if zb then a else - a) end) octs.
Lemma not_smallest reg res : res + zTOL <= zAABox3DDepth reg -> zVec3DOctantIsSmallest reg res = false.
Proof. intros H. unfold zVec3DOctantIsSmallest. rewrite (proj2 (Rltb_false _ _)) by lra. reflexivity. Qed.
Lemma octree_loss : exists n, forall fuel, (n <= fuel)%nat -> exists t, run_oops fuel (zVec3DOctreeInit (-4) (-4) (-4) 4 4 4 1) (map OInsert (corner_pts (7 / 2))) = Some t /\ right_answers t (corner_pts (7 / 2)) /\ right_answers (zVec3DOctreeUnifyOctant t) [].
Proof.
  pose proof zTOL_pos as ZP. pose proof zTOL_small as ZS.
  assert (IN : forall p, List.In p (inserted (map OInsert (corner_pts (7 / 2)))) -> betw (-4) 4 (vx p) /\ betw (-4) 4 (vy p) /\ betw (-4) 4 (vz p)).
  { intros p Hp. cbn in Hp. unfold betw. repeat (destruct Hp as [<- | Hp]; [cbn [vx vy vz]; repeat match goal with |- _ /\ _ => split end; left; lra|]). destruct Hp. }
  assert (SA : sane (map OInsert (corner_pts (7 / 2)))). { unfold sane. intros r Hr. apply in_map_iff in Hr. destruct Hr as (x & X & _). discriminate. }
  destruct (octree_history (-4) (-4) (-4) 4 4 4 1 _ ltac:(lra) SA IN) as (n & H). destruct (octree_unify (-4) (-4) (-4) 4 4 4 1 _ ltac:(lra) SA IN) as (n' & H').
  exists (4 + n + n')%nat. intros fuel L. destruct (H fuel ltac:(lia)) as (t & R & A & _). exists t. split; [exact R|]. split; [exact A|].
  destruct (H' fuel ltac:(lia)) as (t' & R' & _). rewrite R in R'. inversion R'; subst t'. clear R' H H'.
  destruct (init_ok 0 (-4) (-4) (-4) 4 4 4 1 ltac:(lra)) as (T & O & P). set (reg := box_of (-4) (-4) (-4) 4 4 4) in *.
  assert (ER : reg = B3 (V3 (-4) (-4) (-4)) (V3 4 4 4)) by (unfold reg, box_of, zAABox3DCreate; rewrite !zmin_le, !zmax_le by lra; reflexivity).
  assert (EC : zAABox3DCenter reg = V3 0 0 0) by (rewrite ER, center_eq; cbn [bmin bmax vx vy vz]; apply vec3_ext; cbn [vx vy vz]; lra).
  destruct fuel as [|[|[|[|k]]]]; try lia.
  assert (STEP : forall sub p i, oct_index (V3 0 0 0) p = i -> sub i = ONull -> zVec3DOctantPointIsInside reg p = true ->
     exists o, is_chain o /\ run_oop (S (S (S (S k)))) (OT 1 (Oct reg (V3 0 0 0) [] sub)) (OInsert p) = Some (OT 1 (Oct reg (V3 0 0 0) [] (set_sub sub i o)))).
  { intros sub p i I0 N INS. destruct (subreg_dims reg i P) as (D1 & D2 & D3).
    assert (DR : zAABox3DDepth reg = 8 /\ zAABox3DWidth reg = 8 /\ zAABox3DHeight reg = 8) by (rewrite ER; unfold zAABox3DDepth, zAABox3DWidth, zAABox3DHeight; cbn [bmin bmax vx vy vz]; lra). destruct DR as (DR1 & DR2 & DR3).
    destruct (fresh_chain k (subreg reg i) p 1 (subreg_proper reg i P)) as (o & EO & CO).
    { intros reg' E'. apply not_smallest. rewrite E', D1, DR1. lra. } { intros reg' E'. apply not_smallest. rewrite E', D1, DR1. lra. }
    { unfold fits. cbn [pow]. lra. }
    remember (S (S (S k))) as k3. exists o. split; [exact CO|]. cbn [run_oop]. unfold zVec3DOctreeAddPoint. cbn [o_root o_res]. rewrite INS. cbn [negb zVec3DOctantAddPoint]. rewrite not_smallest by lra. rewrite I0. unfold zVec3DOctantAllocSuboctant. rewrite N. cbn [sub_null].
    replace (suboctant_create reg (V3 0 0 0) i) with (Oct (subreg reg i) (zAABox3DCenter (subreg reg i)) [] no_sub) by (unfold subreg; rewrite EC; destruct i; reflexivity). rewrite EO. reflexivity. }
  assert (INS : forall p, List.In p (corner_pts (7 / 2)) -> zVec3DOctantPointIsInside reg p = true).
  { intros p Hp. apply (betw_box (-4) (-4) (-4) 4 4 4); apply IN; exact Hp. }
  assert (IX : forall xb yb zb : bool, oct_index (V3 0 0 0) (V3 (if xb then 7/2 else - (7/2)) (if yb then 7/2 else - (7/2)) (if zb then 7/2 else - (7/2))) = OI xb yb zb).
  { assert (Q : forall b : bool, Rltb 0 (if b then 7/2 else - (7/2)) = b) by (intros []; [apply Rltb_true|apply Rltb_false]; lra). intros. unfold oct_index. cbn [vx vy vz]. rewrite !Q. reflexivity. }
  assert (G : forall l sub, NoDup l -> (forall i, List.In i l -> sub i = ONull) -> (forall i, ~ List.In i l -> is_chain (sub i)) ->
     exists sub', run_oops (S (S (S (S k)))) (OT 1 (Oct reg (V3 0 0 0) [] sub)) (map OInsert (map (fun i => match i with OI xb yb zb => V3 (if xb then 7/2 else - (7/2)) (if yb then 7/2 else - (7/2)) (if zb then 7/2 else - (7/2)) end) l)) = Some (OT 1 (Oct reg (V3 0 0 0) [] sub')) /\ forall i, is_chain (sub' i)).
  { induction l as [|i l IHl]; intros sub ND NU CH; [exists sub; split; [reflexivity|]; intros i; apply CH; intros []|]. inversion ND as [|? ? NI ND']; subst. cbn [map run_oops].
    destruct i as [xb yb zb] eqn:Ei. rewrite <- Ei in *. destruct (STEP sub (V3 (if xb then 7/2 else - (7/2)) (if yb then 7/2 else - (7/2)) (if zb then 7/2 else - (7/2))) i) as (o & CO & EO); [rewrite Ei; apply IX|apply NU; left; reflexivity|apply INS; unfold corner_pts; apply in_map_iff; exists i; split; [rewrite Ei; reflexivity|apply octs_all]|].
    cbn [run_oop] in EO |- *. rewrite EO. apply IHl; [exact ND'| |].
    - intros j Hj. rewrite set_sub_other; [apply NU; right; exact Hj|]. intros ->. exact (NI Hj).
    - intros j Hj. destruct (idx_dec i j) as [<- | NE]; [rewrite set_sub_same; exact CO|]. rewrite set_sub_other by exact NE. apply CH. intros [X|X]; [exact (NE X)|exact (Hj X)]. }
  destruct (G octs no_sub octs_nodup) as (sub' & RR & CH); [reflexivity|intros i Hi; elim Hi; apply octs_all|].
  assert (E0 : zVec3DOctreeInit (-4) (-4) (-4) 4 4 4 1 = OT 1 (Oct reg (V3 0 0 0) [] no_sub)) by (unfold zVec3DOctreeInit, zVec3DOctantCreate; fold (box_of (-4) (-4) (-4) 4 4 4); fold reg; rewrite EC; reflexivity).
  rewrite E0 in R. unfold corner_pts in R. rewrite RR in R. inversion R; subst t.
  assert (UE : unify (Oct reg (V3 0 0 0) [] sub') = Oct reg (V3 0 0 0) [] no_sub).
  { cbn [zVec3DOctantUnify]. assert (BT : forall i, ubit sub' i = true) by (intros i; destruct (chain_unify _ (CH i)) as (A1 & A2 & _); rewrite A1; exact A2).
    rewrite (proj2 (existsb_exists _ _)) by (exists (OI false false false); split; [apply octs_all|apply BT]). rewrite (proj2 (forallb_forall _ _)) by (intros i _; apply BT). cbn [negb fst]. f_equal. unfold merge_points. cbn [app]. apply flat_none. intros i _. apply (chain_unify _ (CH i)). }
  apply (lwf_answers reg); unfold zVec3DOctreeUnifyOctant; cbn [o_root]; rewrite UE; [|constructor]. cbn [lwf]. repeat match goal with |- _ /\ _ => split end; auto; try (intros; exact I); try constructor; intros X; elim X; reflexivity.
Qed.
(** ** points added after unification *)
Lemma hidden_add fuel r c x pts sub p res o : zVec3DOctantIsSmallest r res = false -> zVec3DOctantAddPoint fuel (Oct r c (x :: pts) sub) p res = Some o ->
  forall q r2 s, zVec3DOctantVicinity o q r2 s = zVec3DOctantVicinity (Oct r c (x :: pts) sub) q r2 s.
Proof.
  intros SM H q r2 s. destruct fuel as [|k]; [discriminate|]. cbn [zVec3DOctantAddPoint] in H. rewrite SM in H. destruct (zVec3DOctantAddPoint k _ p res); inversion H; subst. reflexivity.
Qed.
Lemma octree_hidden : exists n, forall fuel, (n <= fuel)%nat -> exists t t', run_oops fuel (zVec3DOctreeInit (-2) (-2) (-2) 2 2 2 2) (map OInsert (corner_pts 1)) = Some t /\ right_answers (zVec3DOctreeUnifyOctant t) (corner_pts 1) /\
  zVec3DOctreeAddPoint fuel (zVec3DOctreeUnifyOctant t) (V3 0 0 0) = Some (t', true) /\ exists v d, zVec3DOctreeVicinity t' (V3 0 0 0) 1 = Some v /\ zVecXDDataToAddrList v = Some (d, []).
Proof.
  pose proof zTOL_pos as ZP. pose proof zTOL_small as ZS.
  assert (IN : forall p, List.In p (inserted (map OInsert (corner_pts 1))) -> betw (-2) 2 (vx p) /\ betw (-2) 2 (vy p) /\ betw (-2) 2 (vz p)).
  { intros p Hp. cbn in Hp. unfold betw. repeat (destruct Hp as [<- | Hp]; [cbn [vx vy vz]; repeat match goal with |- _ /\ _ => split end; left; lra|]). destruct Hp. }
  assert (SA : sane (map OInsert (corner_pts 1))). { unfold sane. intros r Hr. apply in_map_iff in Hr. destruct Hr as (x & X & _). discriminate. }
  destruct (init_ok 0 (-2) (-2) (-2) 2 2 2 2 ltac:(lra)) as (T & O & P). set (reg := box_of (-2) (-2) (-2) 2 2 2) in *.
  assert (ER : reg = B3 (V3 (-2) (-2) (-2)) (V3 2 2 2)) by (unfold reg, box_of, zAABox3DCreate; rewrite !zmin_le, !zmax_le by lra; reflexivity).
  assert (EC : zAABox3DCenter reg = V3 0 0 0) by (rewrite ER, center_eq; cbn [bmin bmax vx vy vz]; apply vec3_ext; cbn [vx vy vz]; lra).
  assert (DR : zAABox3DDepth reg = 4 /\ zAABox3DWidth reg = 4 /\ zAABox3DHeight reg = 4) by (rewrite ER; unfold zAABox3DDepth, zAABox3DWidth, zAABox3DHeight; cbn [bmin bmax vx vy vz]; lra). destruct DR as (DR1 & DR2 & DR3).
  assert (SMR : zVec3DOctantIsSmallest reg 2 = false) by (apply not_smallest; lra).
  destruct (octree_unify (-2) (-2) (-2) 2 2 2 2 _ ltac:(lra) SA IN) as (n & H).
  destruct (history_ok 0 reg (map OInsert (corner_pts 1)) ltac:(lra)) with (t := zVec3DOctreeInit (-2) (-2) (-2) 2 2 2 2) as (n' & H'); auto.
  { intros p Hp _. destruct (IN p Hp) as (A & B & C). apply (betw_box (-2) (-2) (-2) 2 2 2); auto. }
  exists (3 + n + n')%nat. intros fuel L. destruct (H fuel ltac:(lia)) as (t & R & _ & A). destruct (H' fuel ltac:(lia)) as (t1 & R' & TK & PP). rewrite R in R'. inversion R'; subst t1. clear R' H H'. rewrite O, app_nil_r, accept_all in PP by (intros p Hp; destruct (IN p Hp) as (X & Y & Z); apply (betw_box (-2) (-2) (-2) 2 2 2); auto).
  assert (RS : o_res t = 2).
  { clear -R. assert (G : forall l t t', run_oops fuel t (map OInsert l) = Some t' -> o_res t' = o_res t).
    { induction l as [|x l IH]; intros t0 t1 E; cbn [map run_oops run_oop] in E; [inversion E; reflexivity|]. destruct (zVec3DOctreeAddPoint fuel t0 x) as [[t2 b]|] eqn:EA; [|discriminate]. rewrite (IH _ _ E). unfold zVec3DOctreeAddPoint in EA. destruct (o_root t0); [discriminate|]. destruct (negb _); [inversion EA; reflexivity|]. destruct (zVec3DOctantAddPoint _ _ _ _); inversion EA; reflexivity. }
    exact (G _ _ _ R). }
  assert (RU : right_answers (zVec3DOctreeUnifyOctant t) (corner_pts 1)). { replace (corner_pts 1) with (inserted (map OInsert (corner_pts 1))) by reflexivity. assert (E4 : Rabs (2 - -2) = 4) by (rewrite Rabs_right; lra). apply A; rewrite RS, E4; lra. }
  destruct TK as (W & N & _). rewrite RS in W. destruct (o_root t) as [|r0 c0 pts0 sub] eqn:ET; [discriminate|]. destruct W as (-> & -> & _ & _ & _ & EM & SUB). rewrite (EM eq_refl SMR) in *. clear EM.
  assert (SMS : forall i, zVec3DOctantIsSmallest (subreg reg i) 2 = true). { intros i. apply fits0. unfold fits. destruct (subreg_dims reg i P) as (-> & -> & ->). cbn [pow]. lra. }
  assert (NN : forall i, sub_null (sub i) = false /\ snd (zVec3DOctantUnify (sub i)) = true /\ o_points (unify (sub i)) = opts (sub i)).
  { intros i. destruct (unify0 0 2 (subreg reg i) (sub i) (SUB i) (SMS i)) as (_ & U2).
    assert (X : exists p, List.In p (opts (sub i))).
    { exists (match i with OI xb yb zb => V3 (if xb then 1 else - (1)) (if yb then 1 else - (1)) (if zb then 1 else - (1)) end). set (p := match i with OI xb yb zb => _ end). assert (Ip : List.In p (opts (Oct reg (zAABox3DCenter reg) [] sub))) by (rewrite PP; cbn [inserted map]; change (inserted (map OInsert (corner_pts 1))) with (corner_pts 1); apply in_map_iff; exists i; split; [reflexivity|apply octs_all]).
      cbn [opts app] in Ip. apply in_flat_map in Ip. destruct Ip as (j & _ & Ij). pose proof (owf_in 0 2 true _ _ p (SUB j) Ij) as SL.
      assert (EJ : j = i); [|subst j; exact Ij]. destruct i as [xb yb zb], j as [xb' yb' zb']. rewrite (subreg_eq reg xb' yb' zb' P), ER in SL. unfold slack, cutlo, cuthi, p in SL. cbn [bmin bmax vx vy vz] in SL.
      assert (Q : forall b b' : bool, (if b' then (-2 + 2) / 2 else -2) - 0 <= (if b then 1 else - (1)) <= (if b' then 2 else (-2 + 2) / 2) + 0 -> b' = b) by (intros [] [] HQ; try reflexivity; exfalso; lra).
      destruct SL as (S1 & S2 & S3). apply Q in S1, S2, S3. subst. reflexivity. }
    destruct X as (p & Hp). assert (Ni : sub_null (sub i) = false) by (destruct (sub i); [destruct Hp|reflexivity]). split; [exact Ni|]. split; [|exact U2].
    specialize (SUB i). destruct (sub i) as [|r' c' p' s']; [discriminate|]. destruct SUB as (-> & _ & _ & _ & LL & _). pose proof (LL (SMS i)) as N'. cbn [zVec3DOctantUnify].
    assert (EB : existsb (fun i => ubit s' i) octs = false). { apply not_true_is_false. intros HH. apply existsb_exists in HH. destruct HH as (j & _ & HH). rewrite N' in HH. discriminate. } rewrite EB. reflexivity. }
  assert (UE : unify (Oct reg (zAABox3DCenter reg) [] sub) = Oct reg (zAABox3DCenter reg) (flat_map (fun i => opts (sub i)) octs) no_sub).
  { cbn [zVec3DOctantUnify]. assert (BT : forall i, ubit sub i = true) by (intros i; destruct (NN i) as (A1 & A2 & _); rewrite A1; exact A2).
    rewrite (proj2 (existsb_exists _ _)) by (exists (OI false false false); split; [apply octs_all|apply BT]). rewrite (proj2 (forallb_forall _ _)) by (intros i _; apply BT). cbn [negb fst]. f_equal. unfold merge_points. cbn [app]. apply flat_ext. intros i _. apply NN. }
  cbn [opts app] in PP. destruct (flat_map (fun i => opts (sub i)) octs) as [|x0 xs] eqn:EF. { apply Permutation_nil in PP. discriminate. }
  assert (ET' : zVec3DOctreeUnifyOctant t = OT 2 (Oct reg (zAABox3DCenter reg) (x0 :: xs) no_sub)) by (unfold zVec3DOctreeUnifyOctant; rewrite ET, UE, RS; reflexivity).
  destruct fuel as [|[|k]]; try lia.
  set (i0 := oct_index (zAABox3DCenter reg) (V3 0 0 0)).
  assert (EA : exists o, zVec3DOctantAddPoint (S (S k)) (Oct reg (zAABox3DCenter reg) (x0 :: xs) no_sub) (V3 0 0 0) 2 = Some o).
  { eexists. remember (S k) as k1. cbn [zVec3DOctantAddPoint]. rewrite SMR. fold i0. unfold zVec3DOctantAllocSuboctant. cbn [no_sub sub_null]. replace (suboctant_create reg (zAABox3DCenter reg) i0) with (Oct (subreg reg i0) (zAABox3DCenter (subreg reg i0)) [] no_sub) by (unfold subreg; destruct i0; reflexivity). rewrite Heqk1. cbn [zVec3DOctantAddPoint]. rewrite SMS. reflexivity. }
  destruct EA as (o & EO). exists t, (OT 2 o). split; [exact R|split; [exact RU|split]].
  - rewrite ET'. unfold zVec3DOctreeAddPoint. cbn [o_root o_res]. destruct (betw_box (-2) (-2) (-2) 2 2 2 (V3 0 0 0)) as (_ & B); try (unfold betw; cbn [vx vy vz]; left; lra). fold reg in B. rewrite B. cbn [negb]. rewrite EO. reflexivity.
  - destruct RU as (V & _ & _). destruct (V (V3 0 0 0) 1 ltac:(lra)) as (v & d & l & V1 & V2 & V3'). exists v, d. split.
    + rewrite <- V1. unfold zVec3DOctreeVicinity. rewrite ET'. cbn [o_root]. apply (hidden_add _ _ _ _ _ _ _ _ _ SMR EO).
    + replace (@nil vec3) with l; [exact V2|]. apply Permutation_nil. rewrite V3'. replace (filter _ (corner_pts 1)) with (@nil vec3); [constructor|]. symmetry.
      assert (FF : forall l, (forall p, List.In p l -> 1 <= dist p (V3 0 0 0)) -> filter (fun p => Rltb (dist p (V3 0 0 0)) 1) l = []). { induction l0 as [|a l0 IH]; intros HH; [reflexivity|]. cbn [filter]. rewrite (proj2 (Rltb_false _ _)) by (apply HH; left; reflexivity). apply IH. intros p Hp. apply HH. right. exact Hp. }
      apply FF. intros p Hp. assert (D2 : dist p (V3 0 0 0) * dist p (V3 0 0 0) = 3). { fold (Rsqr (dist p (V3 0 0 0))). rewrite <- sqd3. cbn in Hp. repeat (destruct Hp as [<- | Hp]; [unfold zVec3DSqrDist, zVec3DSqrNorm, zVec3DInnerProd, zVec3DSub, zSqr; cbn [vx vy vz]; lra|]). destruct Hp. } pose proof (dist_nonneg p (V3 0 0 0)). nra.
Qed.

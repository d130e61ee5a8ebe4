(** Triangulation: counts, chains, winding numbers *)
From Verif Require Import Base Spec SpecGeom SpecHull SpecClip SpecCol ModelVec ModelElem ModelClip FactsVec FactsAlg FactsElem FactsSat FactsCol3.
From Coq Require Import List Lia Lra ZArith.
Import ListNotations.
Open Scope R_scope.

Definition cornersOf (t : tri3) : corners := (tv0 t, tv1 t, tv2 t).
(** ** the number of triangles *)
Lemma scan_len norm : forall aft bef vp t, let '(t', l') := clipScan norm bef vp aft t in length l' = (length bef + length aft)%nat /\ (t' <> None \/ (aft = [] /\ t' = t)).
Proof.
  induction aft as [|pst aft IH]; intros bef vp t; cbn [clipScan]; [rewrite rev_length; split; [cbn; lia|right; auto]|].
  set (t1 := snd _). clearbody t1. destruct (_ && _)%bool; [rewrite app_length, rev_length; split; [reflexivity|left; discriminate]|].
  specialize (IH (vp :: bef) pst (Some t1)). destruct (clipScan _ _ _ _ _) as (t' & l'). destruct IH as (L & T). split; [cbn in *; lia|]. left. destruct T as [T|(_ & ->)]; [exact T|discriminate].
Qed.
Lemma create_corners a b c : tv0 (snd (zTri3DCreate a b c)) = a /\ tv1 (snd (zTri3DCreate a b c)) = b /\ tv2 (snd (zTri3DCreate a b c)) = c.
Proof. unfold zTri3DCreate. cbv zeta. destruct (zVec3DIsTiny _); cbn; auto. Qed.
Definition corners_in (t : tri3) (l : list vec3) : Prop := List.In (tv0 t) l /\ List.In (tv1 t) l /\ List.In (tv2 t) l.
Lemma scan_in norm L : forall aft bef vp t, incl bef L -> List.In vp L -> incl aft L -> (forall x, t = Some x -> corners_in x L) ->
  let '(t', l') := clipScan norm bef vp aft t in incl l' L /\ (forall x, t' = Some x -> corners_in x L).
Proof.
  induction aft as [|pst aft IH]; intros bef vp t B V A T; cbn [clipScan]; [split; [intros x I; apply B; rewrite in_rev; exact I|exact T]|].
  set (pre := match bef with u :: _ => u | [] => last (pst :: aft) vp end). destruct (create_corners pre vp pst) as (C0 & C1 & C2). set (t1 := snd _) in *.
  assert (P : List.In pre L). { unfold pre. destruct bef as [|u b]; [|apply B; left; reflexivity]. apply A. destruct (@exists_last _ (pst :: aft)) as (m & z & E); [discriminate|]. rewrite E, last_last. apply in_or_app. right. left. reflexivity. }
  assert (T1 : corners_in t1 L) by (unfold corners_in; rewrite C0, C1, C2; split; [exact P|split; [exact V|apply A; left; reflexivity]]).
  destruct (_ && _)%bool.
  - split; [|intros x E; injection E as <-; exact T1]. intros x I. apply in_app_or in I. destruct I as [I|I]; [apply B; rewrite in_rev; exact I|apply A, I].
  - apply IH; [intros x [<-|I]; [exact V|apply B, I]|apply A; left; reflexivity|intros x I; apply A; right; exact I|intros x E; injection E as <-; exact T1].
Qed.
Lemma clip_count norm : forall fuel l, (length l <= fuel)%nat -> exists ts, clipLoop fuel norm l = Some ts /\ length ts = (length l - 2)%nat /\ forall t, List.In t ts -> corners_in t l.
Proof.
  induction fuel as [|k IH]; intros l H; cbn [clipLoop]; destruct (Nat.leb_spec (length l) 2) as [Q|Q]; try (exists []; split; [reflexivity|]; split; [cbn; lia|intros t []]); [lia|].
  destruct l as [|vp aft]; [cbn in Q; lia|]. pose proof (scan_len norm aft [] vp None) as S. pose proof (scan_in norm (vp :: aft) aft [] vp None ltac:(intros x []) ltac:(left; reflexivity) ltac:(intros x I; right; exact I) ltac:(discriminate)) as N.
  destruct (clipScan norm [] vp aft None) as (t' & l'). destruct S as (L & T). destruct N as (N1 & N2). destruct t' as [t|]; [|destruct T as [T|(-> & _)]; [congruence|cbn in Q; lia]].
  destruct (IH l') as (ts & E & C & I); [cbn in *; lia|]. rewrite E. exists (t :: ts). split; [reflexivity|]. split; [cbn in *; lia|]. intros x [<-|J]; [apply N2; reflexivity|]. destruct (I x J) as (J0 & J1 & J2). split; [apply N1, J0|]. split; [apply N1, J1|apply N1, J2].
Qed.
Lemma triangulate_count l : l <> [] -> exists ts, zLoop3DTriangulate l = Some ts /\ length ts = (length l - 2)%nat /\ forall t, List.In t ts -> List.In (tv0 t) l /\ List.In (tv1 t) l /\ List.In (tv2 t) l.
Proof. destruct l as [|v r]; [congruence|intros _]. exact (clip_count _ (length (v :: r)) (v :: r) (Nat.le_refl _)). Qed.

(** ** chains *)
Section Chain.
Variables (A : Type) (add : A -> A -> A) (zero : A) (opp : A -> A) (f : vec3 -> vec3 -> A).
Hypothesis assoc : forall x y z, add x (add y z) = add (add x y) z.
Hypothesis comm : forall x y, add x y = add y x.
Hypothesis unit0 : forall x, add zero x = x.
Hypothesis inv : forall x, add x (opp x) = zero.
Hypothesis anti : forall a b, f b a = opp (f a b).
Notation ps := (path_sum add zero f).
Notation ls := (loop_sum add zero f).
Lemma path_split x a y : ps (x ++ a :: y) = add (ps (x ++ [a])) (ps (a :: y)).
Proof.
  induction x as [|b x IH]; [cbn [app]; cbn [path_sum]; rewrite unit0; reflexivity|]. destruct x as [|c x].
  - cbn [app]. cbn [path_sum]. rewrite (comm (f b a) zero), unit0. reflexivity.
  - cbn [app] in *. change (ps (b :: c :: x ++ a :: y)) with (add (f b c) (ps (c :: x ++ a :: y))). rewrite IH. change (ps (b :: c :: x ++ [a])) with (add (f b c) (ps (c :: x ++ [a]))). apply assoc.
Qed.
Lemma loop_rot a r : ls (a :: r) = ls (r ++ [a]).
Proof.
  unfold loop_sum. cbn [firstn]. destruct r as [|b r]; [reflexivity|]. cbn [firstn app]. rewrite <- app_assoc. cbn [app].
  change (ps (a :: b :: r ++ [a])) with (add (f a b) (ps (b :: r ++ [a]))). change (b :: r ++ [a; b]) with ((b :: r) ++ a :: [b]). rewrite path_split. cbn [app path_sum]. rewrite (comm (f a b) zero), unit0. apply comm.
Qed.
Definition tri_sum (t : corners) : A := let '(a, b, c) := t in add (f a b) (add (f b c) (f c a)).
Lemma add_cancel x y z : add x (add y (add z (opp x))) = add y z.
Proof. rewrite (assoc y z), (comm (add y z)), assoc, inv, unit0. reflexivity. Qed.
Lemma cut_first v x m u : ls (v :: x :: m ++ [u]) = add (tri_sum (u, v, x)) (ls (x :: m ++ [u])).
Proof.
  rewrite loop_rot. unfold loop_sum. cbn [app firstn]. rewrite <- !app_assoc. cbn [app].
  change (x :: m ++ [u; v; x]) with ((x :: m) ++ u :: [v; x]). change (x :: m ++ [u; x]) with ((x :: m) ++ u :: [x]). rewrite (path_split (x :: m) u [v; x]), (path_split (x :: m) u [x]). cbn [path_sum tri_sum app].
  rewrite (comm (f v x) zero), (comm (f u x) zero), !unit0. rewrite (anti u x). set (P := ps (x :: m ++ [u])).
  transitivity (add (add (f u v) (f v x)) (add P (add (f u x) (opp (f u x))))).
  - rewrite inv, (comm P zero), unit0. apply comm.
  - rewrite (assoc P), (comm (add P (f u x))). rewrite <- !assoc. reflexivity.
Qed.
Lemma rot_app p q : ls (p ++ q) = ls (q ++ p).
Proof.
  revert q. induction p as [|a p IH]; intros q; [rewrite app_nil_r; reflexivity|]. cbn [app]. rewrite loop_rot, <- app_assoc, IH, <- app_assoc. reflexivity.
Qed.
Lemma cut_middle p u v x s : ls (p ++ u :: v :: x :: s) = add (tri_sum (u, v, x)) (ls (p ++ u :: x :: s)).
Proof.
  replace (p ++ u :: v :: x :: s) with ((p ++ [u]) ++ (v :: x :: s)) by (rewrite <- app_assoc; reflexivity). rewrite rot_app. cbn [app]. rewrite (app_assoc s), cut_first. f_equal.
  replace (p ++ u :: x :: s) with ((p ++ [u]) ++ (x :: s)) by (rewrite <- app_assoc; reflexivity). rewrite rot_app. cbn [app]. rewrite <- app_assoc. reflexivity.
Qed.
Lemma small_loop l : (length l <= 2)%nat -> (forall a, f a a = zero) -> ls l = zero.
Proof.
  intros H Z. destruct l as [|a [|b [|c l]]]; [reflexivity| | |cbn in H; lia]; unfold loop_sum; cbn [firstn app path_sum].
  - rewrite comm, unit0. apply Z.
  - rewrite (comm (f b a)), unit0. rewrite (anti a b). apply inv.
Qed.
Lemma reduces_sum n l ts l' : reduces n l ts l' -> ls l = add (fold_right (fun t s => add (tri_sum t) s) zero ts) (ls l').
Proof.
  induction 1 as [l|l u v x o l1 ts l' C E H IH]; [cbn; rewrite unit0; reflexivity|]. assert (Q : ls l = add (tri_sum (u, v, x)) (ls l1)) by (destruct C; [apply cut_first|apply cut_middle]). rewrite Q, IH. cbn [fold_right]. apply assoc.
Qed.
End Chain.

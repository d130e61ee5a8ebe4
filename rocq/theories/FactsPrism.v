(** Ear clipping on numbers of vertices: structure of the triangulation. *)
From Coq Require Import Permutation.
From Verif Require Import Base SpecClip SpecMesh ModelClip ModelPrism FactsAlg FactsVec FactsClip FactsClip2 FactsClip3 FactsClip4.
From Coq Require Import List Lia Lra.
Import ListNotations.
Open Scope R_scope.

(** a corner cut off a loop of numbers *)
Inductive tipN : list nat -> nat -> nat -> nat -> list nat -> list nat -> Prop :=
| tipN_first v x m u : tipN (v :: x :: m ++ [u]) u v x m (x :: m ++ [u])
| tipN_middle p u v x s : tipN (p ++ u :: v :: x :: s) u v x (s ++ p) (p ++ u :: x :: s).
Lemma tipN_map f l u v x o l1 : tipN l u v x o l1 -> tip_of (map f l) (f u) (f v) (f x) (map f o) (map f l1).
Proof.
  destruct 1 as [v x m u|p u v x s].
  - cbn [map]. rewrite !map_app. cbn [map]. apply tip_first.
  - rewrite !map_app. cbn [map]. apply tip_middle.
Qed.
Section Num.
Variable vs : list vec3.
Notation pos := (vertAt vs).
Definition acceptsN (n : vec3) (u v x : nat) (o : list nat) : bool := accepts n (pos u) (pos v) (pos x) (map pos o).
Lemma at_tipN bef v x s : (2 <= length bef + length (x :: s))%nat ->
  tipN (rev bef ++ v :: x :: s) (match bef with y :: _ => y | [] => last (x :: s) v end) v x (otherNumbers bef s) (rev bef ++ x :: s).
Proof.
  intros L. destruct bef as [|y b].
  - cbn [rev app otherNumbers]. destruct (exists_last (l := s)) as (m & u & E); [intros ->; cbn in L; lia|]. subst s. rewrite app_comm_cons, last_last, removelast_last. apply tipN_first.
  - cbn [rev otherNumbers]. rewrite <- !app_assoc. cbn [app]. apply tipN_middle.
Qed.
(** the triangle a scan returns is always made of three successive corners *)
Lemma scanN_cases n : forall aft bef vp t, (3 <= length bef + 1 + length aft)%nat -> aft <> [] ->
  (exists u v x o l1, tipN (rev bef ++ vp :: aft) u v x o l1 /\ acceptsN n u v x o = true /\ clipScanNum vs n bef vp aft t = (Some (u, v, x), l1)) \/
  ((exists u v x o l1, tipN (rev bef ++ vp :: aft) u v x o l1 /\ clipScanNum vs n bef vp aft t = (Some (u, v, x), removelast (rev bef ++ vp :: aft))) /\
   forall p v x s, rev bef ++ vp :: aft = p ++ v :: x :: s -> (length bef <= length p)%nat -> acceptsN n (match rev p with y :: _ => y | [] => last (x :: s) v end) v x (otherNumbers (rev p) s) = false).
Proof.
  induction aft as [|pst aft IH]; intros bef vp t L Ne; [congruence|clear Ne].
  cbn [clipScanNum]. set (pre := match bef with u :: _ => u | [] => last (pst :: aft) vp end).
  change (Rltb 0 (zVec3DInnerProd (tnorm (snd (zTri3DCreate (pos pre) (pos vp) (pos pst)))) n) && zLoop3DTriangulateCheck (snd (zTri3DCreate (pos pre) (pos vp) (pos pst))) (map pos (otherNumbers bef aft)))%bool with (acceptsN n pre vp pst (otherNumbers bef aft)).
  assert (T : tipN (rev bef ++ vp :: pst :: aft) pre vp pst (otherNumbers bef aft) (rev bef ++ pst :: aft)) by (apply at_tipN; cbn in *; lia).
  destruct (acceptsN n pre vp pst (otherNumbers bef aft)) eqn:A.
  - left. exists pre, vp, pst, (otherNumbers bef aft), (rev bef ++ pst :: aft). auto.
  - destruct aft as [|q aft].
    + right. split.
      * exists pre, vp, pst, (otherNumbers bef []), (rev bef ++ [pst]). split; [exact T|]. cbn [clipScanNum rev]. f_equal. rewrite (app_assoc (rev bef) [vp] [pst] : rev bef ++ [vp; pst] = _), removelast_last. reflexivity.
      * intros p v x s E Lp. assert (Ep : rev bef = p /\ [vp; pst] = v :: x :: s).
        { apply app_same; [|exact E]. rewrite rev_length. apply (f_equal (@length nat)) in E. rewrite !app_length, rev_length in E. cbn in E. lia. }
        destruct Ep as (<- & Ev). injection Ev as <- <- <-. rewrite rev_involutive. exact A.
    + assert (Er : rev (vp :: bef) ++ pst :: q :: aft = rev bef ++ vp :: pst :: q :: aft) by (cbn [rev]; rewrite <- app_assoc; reflexivity).
      destruct (IH (vp :: bef) pst (Some (pre, vp, pst))) as [H|(H & K)]; [cbn in *; lia|discriminate| |].
      * left. rewrite Er in H. exact H.
      * right. rewrite Er in H. split; [exact H|]. intros p v x s E Lp. destruct (Nat.eq_dec (length p) (length bef)) as [Q|Q].
        { assert (Ep : rev bef = p /\ vp :: pst :: q :: aft = v :: x :: s) by (apply app_same; [rewrite rev_length; lia|exact E]).
          destruct Ep as (<- & Ev). injection Ev as <- <- <-. rewrite rev_involutive. exact A. }
        { apply K; [rewrite <- E; exact Er|cbn; lia]. }
Qed.
Lemma map_split {A B} (f : A -> B) : forall l p q, map f l = p ++ q -> exists p' q', l = p' ++ q' /\ map f p' = p /\ map f q' = q.
Proof.
  induction l as [|a l IH]; intros p q E.
  - cbn in E. symmetry in E. apply app_eq_nil in E. destruct E as (-> & ->). exists [], []. auto.
  - destruct p as [|b p]; [exists [], (a :: l); auto|]. cbn in E. injection E as E1 E2. destruct (IH p q E2) as (p' & q' & -> & M1 & M2). exists (a :: p'), q'. cbn. rewrite M1, E1. auto.
Qed.
Lemma scanN n vp aft : (3 <= length (vp :: aft))%nat ->
  exists u v x o l1, tipN (vp :: aft) u v x o l1 /\
  ((cuttable n (pos u) (pos v) (pos x) (map pos o) /\ clipScanNum vs n [] vp aft None = (Some (u, v, x), l1)) \/
   (earless n (map pos (vp :: aft)) /\ clipScanNum vs n [] vp aft None = (Some (u, v, x), removelast (vp :: aft)))).
Proof.
  intros L. destruct (scanN_cases n aft [] vp None) as [(u & v & x & o & l1 & T & A & E)|((u & v & x & o & l1 & T & E) & H)]; [cbn in *; lia|intros ->; cbn in L; lia| |].
  - exists u, v, x, o, l1. split; [exact T|]. left. split; [apply accepts_cut, A|exact E].
  - exists u, v, x, o, l1. split; [exact T|]. right. split; [|exact E]. split; [rewrite map_length; exact L|]. intros u' v' x' o' l' C. apply rejects_ear.
    cbn [rev app] in H. remember (map pos (vp :: aft)) as M eqn:EM. destruct C as [v' x' m' u'|p' u' v' x' s'].
    + symmetry in EM. destruct aft as [|x1 s1]; [cbn in L; lia|]. cbn [map] in EM. injection EM as <- <- Es. destruct (map_split _ _ _ _ Es) as (m & q & -> & <- & Eq). destruct q as [|u1 [|? ?]]; try discriminate. injection Eq as <-.
      specialize (H [] vp x1 (m ++ [u1]) eq_refl (Nat.le_refl _)). cbn [rev] in H. rewrite app_comm_cons, last_last in H. cbn [otherNumbers] in H. rewrite removelast_last in H. exact H.
    + symmetry in EM. destruct (map_split _ _ _ _ EM) as (p & q & Ep & <- & Eq). destruct q as [|u1 [|v1 [|x1 s1]]]; try discriminate. cbn [map] in Eq. injection Eq as <- <- <- <-.
      specialize (H (p ++ [u1]) v1 x1 s1). rewrite Ep in H. rewrite <- app_assoc in H. specialize (H eq_refl ltac:(cbn; lia)). rewrite rev_unit in H. cbn [otherNumbers] in H. rewrite rev_involutive in H. unfold acceptsN in H. rewrite map_app in H. exact H.
Qed.
Inductive cutsN (n : vec3) : list nat -> list (nat * nat * nat) -> list nat -> Prop :=
| cutsN_refl l : cutsN n l [] l
| cutsN_cut l u v x o l1 ts l' : tipN l u v x o l1 -> cuttable n (pos u) (pos v) (pos x) (map pos o) -> cutsN n l1 ts l' -> cutsN n l ((u, v, x) :: ts) l'.
Definition posOf (f : nat * nat * nat) : SpecClip.corners := let '(a, b, c) := f in (pos a, pos b, pos c).
Lemma cutsN_reduces n l ts l' : cutsN n l ts l' -> reduces n (map pos l) (map posOf ts) (map pos l').
Proof. induction 1 as [l|l u v x o l1 ts l' T C H IH]; [constructor|]. cbn [map posOf]. econstructor; [apply tipN_map, T|exact C|exact IH]. Qed.
Lemma tipN_len l u v x o l1 : tipN l u v x o l1 -> length l = S (length l1) /\ (3 <= length l)%nat.
Proof. destruct 1; [cbn; rewrite app_length; cbn; lia|rewrite !app_length; cbn; lia]. Qed.
(** a run: always as many triangles as corners less two; the first is at three successive corners *)
Definition firstOK (l : list nat) (ts : list (nat * nat * nat)) : Prop := match ts with [] => (length l <= 2)%nat | (u, v, x) :: _ => exists o l1, tipN l u v x o l1 end.
Lemma runN n : forall fuel l, (length l <= fuel)%nat -> exists ts, clipLoopNum vs fuel n l = Some ts /\ length ts = (length l - 2)%nat /\ firstOK l ts /\
  ((exists l', cutsN n l ts l' /\ (length l' <= 2)%nat) \/ (exists dn rest l', ts = dn ++ rest /\ cutsN n l dn l' /\ earless n (map pos l'))).
Proof.
  induction fuel as [|k IH]; intros l H; cbn [clipLoopNum]; destruct (Nat.leb_spec (length l) 2) as [Q|Q]; try (exists []; split; [reflexivity|]; split; [cbn [length]; lia|]; split; [exact Q|left; exists l; split; [constructor|exact Q]]); [lia|].
  destruct l as [|vp aft]; [cbn in Q; lia|]. destruct (scanN n vp aft) as (u & v & x & o & l1 & T & [(C & E)|(Z & E)]); [lia| |]; rewrite E.
  - destruct (tipN_len _ _ _ _ _ _ T) as (Ln & _). destruct (IH l1) as (ts & Er & Lt & _ & Rn); [lia|]. rewrite Er. exists ((u, v, x) :: ts). split; [reflexivity|]. split; [cbn [length] in *; lia|]. split; [exists o, l1; exact T|].
    destruct Rn as [(l' & Rn & L')|(dn & rs & l' & -> & Rn & Z)].
    + left. exists l'. split; [|exact L']. econstructor; eassumption.
    + right. exists ((u, v, x) :: dn), rs, l'. split; [reflexivity|]. split; [|exact Z]. econstructor; eassumption.
  - assert (Ll : length (removelast (vp :: aft)) = length aft). { destruct (exists_last (l := vp :: aft)) as (m & y & Em); [discriminate|]. rewrite Em, removelast_last. apply (f_equal (@length nat)) in Em. rewrite app_length in Em. cbn in Em. lia. }
    destruct (IH (removelast (vp :: aft))) as (ts & Er & Lt & _); [rewrite Ll; cbn in H; lia|]. rewrite Er. exists ((u, v, x) :: ts). split; [reflexivity|]. split; [cbn [length] in *; rewrite Lt, Ll; lia|]. split; [exists o, l1; exact T|].
    right. exists [], ((u, v, x) :: ts), (vp :: aft). split; [reflexivity|]. split; [constructor|exact Z].
Qed.

(** ** directed sides *)
Fixpoint pairsP {A} (l : list A) : list (A * A) := match l with a :: ((b :: _) as r) => (a, b) :: pairsP r | _ => [] end.
Definition pairsL {A} (l : list A) : list (A * A) := pairsP (l ++ firstn 1 l).
Lemma pairsP_app {A} (x : list A) a y : pairsP (x ++ a :: y) = pairsP (x ++ [a]) ++ pairsP (a :: y).
Proof.
  induction x as [|b x IH]; [reflexivity|]. destruct x as [|c x]; [reflexivity|].
  cbn [app] in *. change (pairsP (b :: c :: x ++ a :: y)) with ((b, c) :: pairsP (c :: x ++ a :: y)). rewrite IH. reflexivity.
Qed.
Lemma pairsL_rot {A} (p q : list A) : Permutation (pairsL (p ++ q)) (pairsL (q ++ p)).
Proof.
  destruct p as [|a p]; [rewrite app_nil_r; reflexivity|]. destruct q as [|b q]; [rewrite app_nil_r; reflexivity|].
  unfold pairsL. cbn [app firstn]. rewrite <- !app_assoc. cbn [app].
  change (a :: p ++ b :: q ++ [a]) with ((a :: p) ++ b :: q ++ [a]). change (b :: q ++ a :: p ++ [b]) with ((b :: q) ++ a :: p ++ [b]). rewrite (pairsP_app (a :: p) b (q ++ [a])), (pairsP_app (b :: q) a (p ++ [b])). cbn [app]. apply Permutation_app_comm.
Qed.
(** up to rotation a cut turns u v x r into u x r *)
Lemma tipN_rot l u v x o l1 : tipN l u v x o l1 -> exists r, Permutation l (u :: v :: x :: r) /\ Permutation l1 (u :: x :: r) /\
  Permutation (pairsL l) ((u, v) :: (v, x) :: pairsP (x :: r ++ [u])) /\ Permutation (pairsL l1) ((u, x) :: pairsP (x :: r ++ [u])).
Proof.
  destruct 1 as [v x m u|p u v x s].
  - exists m. split; [rewrite (app_comm_cons m [u] x), (app_comm_cons (x :: m) [u] v); rewrite Permutation_app_comm; reflexivity|]. split; [rewrite (app_comm_cons m [u] x), Permutation_app_comm; reflexivity|].
    split; [rewrite (app_comm_cons m [u] x), (app_comm_cons (x :: m) [u] v), pairsL_rot; reflexivity|rewrite (app_comm_cons m [u] x), pairsL_rot; reflexivity].
  - exists (s ++ p). split; [rewrite Permutation_app_comm; reflexivity|]. split; [rewrite Permutation_app_comm; reflexivity|]. split; rewrite pairsL_rot; unfold pairsL; cbn [app firstn]; rewrite <- ?app_assoc; reflexivity.
Qed.
Lemma pairs_in {A} (l : list A) a b : List.In (a, b) (pairsL l) -> List.In a l /\ List.In b l.
Proof.
  unfold pairsL. assert (G : forall m, List.In (a, b) (pairsP m) -> List.In a m /\ List.In b m).
  { induction m as [|c [|d m] IH]; [intros []|intros []|]. intros [E|I]; [injection E as -> ->; cbn; auto|]. destruct (IH I) as (I1 & I2). split; right; assumption. }
  intros I. destruct (G _ I) as (I1 & I2). split; [destruct (in_app_or _ _ _ I1) as [J|J]|destruct (in_app_or _ _ _ I2) as [J|J]]; auto; destruct l; cbn in J |- *; tauto.
Qed.
(** sides of the triangles: those of the loop, and opposite pairs *)
Lemma opp_opp {A} (e : A * A) : opp (opp e) = e. Proof. destruct e; reflexivity. Qed.
Definition selfopp {A} (l : list (A * A)) : Prop := Permutation l (map opp l).
Lemma selfopp_app {A} (a b : list (A * A)) : selfopp a -> selfopp b -> selfopp (a ++ b).
Proof. unfold selfopp. intros H K. rewrite map_app. apply Permutation_app; assumption. Qed.
Lemma small_selfopp {A} (l : list A) : (length l <= 2)%nat -> selfopp (pairsL l).
Proof.
  destruct l as [|a [|b [|c l]]]; cbn [length]; intros H; [constructor| | |lia]; unfold pairsL, selfopp; cbn.
  - constructor. constructor.
  - apply perm_swap.
Qed.
Lemma cutsN_sides n l ts l' : cutsN n l ts l' -> exists D, selfopp D /\ Permutation (all_sides ts ++ pairsL l') (pairsL l ++ D).
Proof.
  induction 1 as [l|l u v x o l1 ts l' T C H IH].
  - exists []. split; [constructor|]. cbn. rewrite app_nil_r. reflexivity.
  - destruct IH as (D & SD & P). destruct (tipN_rot _ _ _ _ _ _ T) as (r & _ & _ & P1 & P2). exists ((x, u) :: (u, x) :: D). split.
    + unfold selfopp in *. cbn [map opp fst snd]. rewrite perm_swap. do 2 apply perm_skip. exact SD.
    + unfold all_sides in *. cbn [flat_map sides app]. rewrite P, P1, P2. cbn [app]. do 2 apply perm_skip. exact (Permutation_app_swap_app [(x, u); (u, x)] _ _).
Qed.
Lemma perm_NoDup {A} (a b : list A) : Permutation a b -> NoDup a -> NoDup b. Proof. intros. eapply Permutation_NoDup; eassumption. Qed.
Lemma pairs_NoDup : forall l : list nat, NoDup l -> NoDup (pairsP l).
Proof.
  induction l as [|a [|b l] IH]; intros N; [constructor|constructor|]. inversion N as [|y m N1 N2 E]; subst. change (pairsP (a :: b :: l)) with ((a, b) :: pairsP (b :: l)). constructor; [|apply IH, N2].
  intros I. apply N1. assert (G : forall m, List.In (a, b) (pairsP m) -> List.In a m). { clear. induction m as [|c [|d m] IH]; [intros []|intros []|]. intros [E|I]; [injection E as -> ->; left; reflexivity|right; apply IH, I]. } exact (G _ I).
Qed.
Lemma succ_rot (u v x : nat) (r : list nat) (a : nat) : NoDup (u :: v :: x :: r) -> (List.In (u, a) ((u, v) :: (v, x) :: pairsP (x :: r ++ [u])) -> a = v) /\ (List.In (v, a) ((u, v) :: (v, x) :: pairsP (x :: r ++ [u])) -> a = x).
Proof.
  intros N. inversion N as [|y m Nu Nv E]; subst. inversion Nv as [|y m Nv1 Nx E]; subst.
  assert (G : forall b m, List.In (b, a) (pairsP (m ++ [u])) -> List.In b m). { clear. intros b m. induction m as [|c m IH]; [intros []|]. destruct m as [|d m]; cbn [app] in *; [intros [I|[]]; injection I as -> ->; left; reflexivity|]. intros [I|I]; [injection I as -> ->; left; reflexivity|right; apply IH, I]. }
  assert (Uv : u <> v) by (intros ->; apply Nu; left; reflexivity).
  split; intros [I|[I|I]]; try congruence.
  - exfalso. apply (G u (x :: r)) in I. apply Nu. right. exact I.
  - exfalso. apply (G v (x :: r)) in I. apply Nv1. exact I.
Qed.
Lemma cutsN_short n l ts l' : cutsN n l ts l' -> (length l <= 2)%nat -> ts = [].
Proof. intros H L. destruct H as [l|l u v x o l1 ts l' T C H]; [reflexivity|]. destruct (tipN_len _ _ _ _ _ _ T). lia. Qed.
Lemma cutsN_in n l ts l' : cutsN n l ts l' -> forall a b c, List.In (a, b, c) ts -> List.In a l /\ List.In b l /\ List.In c l.
Proof.
  induction 1 as [l|l u v x o l1 ts l' T C H IH]; intros a b c [].
  - injection H0 as <- <- <-. destruct (tipN_rot _ _ _ _ _ _ T) as (r & P & _). repeat split; eapply Permutation_in; try (symmetry; exact P); cbn; auto.
  - destruct (tipN_rot _ _ _ _ _ _ T) as (r & P & P1 & _). assert (G : incl l1 l). { intros y I. apply (Permutation_in _ P1) in I. apply (Permutation_in (l := u :: v :: x :: r)); [symmetry; exact P|]. cbn in *. tauto. }
    destruct (IH a b c H0) as (A & B & D). auto.
Qed.
Lemma sides_in {l : list nat} {ts a b} : (forall a b c, List.In (a, b, c) ts -> List.In a l /\ List.In b l /\ List.In c l) -> List.In (a, b) (all_sides ts) -> List.In a l /\ List.In b l.
Proof.
  intros H I. apply in_flat_map in I. destruct I as (((p, q), r) & I & J). destruct (H p q r I) as (P & Q & S). cbn in J. destruct J as [E|[E|[E|[]]]]; injection E as <- <-; auto.
Qed.
Lemma cutsN_noback n l ts l' : cutsN n l ts l' -> NoDup l -> forall a b, List.In (a, b) (pairsL l) -> ~ List.In (b, a) (all_sides ts).
Proof.
  induction 1 as [l|l u v x o l1 ts l' T C H IH]; intros N a b I J; [destruct J|].
  destruct (tipN_rot _ _ _ _ _ _ T) as (r & P & P1 & Q & Q1). assert (N1 : NoDup (u :: v :: x :: r)) by (eapply perm_NoDup; eassumption). apply (Permutation_in _ Q) in I.
  inversion N1 as [|y m Nu Nv E]; subst. inversion Nv as [|y m Nv1 Nx E]; subst. inversion Nx as [|y m Nx1 Nr E]; subst.
  unfold all_sides in J. cbn [flat_map sides app] in J. destruct J as [J|[J|[J|J]]].
  - injection J as <- <-. apply (succ_rot u v x r u N1) in I. subst x. apply Nu. right. left. reflexivity.
  - injection J as <- <-. assert (Ux : u <> x) by (intros ->; apply Nu; right; left; reflexivity). assert (Vx : v <> x) by (intros ->; apply Nv1; left; reflexivity). destruct I as [I|[I|I]]; [congruence|congruence|].
    assert (G : forall m, List.In (x, v) (pairsP (m ++ [u])) -> List.In v (m ++ [u])). { clear. intros m. generalize (m ++ [u]) as k. induction k as [|c [|d k] IH]; [intros []|intros []|]. intros [I|I]; [injection I as -> ->; right; left; reflexivity|right; apply IH, I]. }
    apply (G (x :: r)) in I. apply in_app_or in I. destruct I as [I|[I|[]]]; [contradiction|]. subst. apply Nu. left. reflexivity.
  - injection J as <- <-. apply (succ_rot u v x r x N1) in I. subst x. apply Nv1. left. reflexivity.
  - assert (N2 : NoDup l1). { eapply perm_NoDup; [symmetry; exact P1|]. constructor; [intros K; apply Nu; right; exact K|exact Nx]. }
    assert (Vl : ~ List.In v l1). { intros K. apply (Permutation_in _ P1) in K. destruct K as [K|K]; [subst; apply Nu; left; reflexivity|contradiction]. }
    destruct (sides_in (cutsN_in _ _ _ _ H) J) as (Ib & Ia). destruct I as [I|[I|I]]; [injection I as <- <-; contradiction|injection I as <- <-; contradiction|].
    apply (IH N2 a b); [|exact J]. apply (Permutation_in (l := (u, x) :: pairsP (x :: r ++ [u]))); [symmetry; exact Q1|]. right. exact I.
Qed.
Lemma cutsN_NoDup n l ts l' : cutsN n l ts l' -> NoDup l -> NoDup (all_sides ts).
Proof.
  induction 1 as [l|l u v x o l1 ts l' T C H IH]; intros N; [constructor|].
  destruct (tipN_rot _ _ _ _ _ _ T) as (r & P & P1 & Q & Q1). assert (N1 : NoDup (u :: v :: x :: r)) by (eapply perm_NoDup; eassumption).
  inversion N1 as [|y m Nu Nv E]; subst. inversion Nv as [|y m Nv1 Nx E]; subst. inversion Nx as [|y m Nx1 Nr E]; subst.
  assert (N2 : NoDup l1). { eapply perm_NoDup; [symmetry; exact P1|]. constructor; [intros K; apply Nu; right; exact K|exact Nx]. }
  assert (Vl : ~ List.In v l1). { intros K. apply (Permutation_in _ P1) in K. destruct K as [K|K]; [subst; apply Nu; left; reflexivity|contradiction]. }
  assert (Uv : u <> v) by (intros ->; apply Nu; left; reflexivity). assert (Ux : u <> x) by (intros ->; apply Nu; right; left; reflexivity). assert (Vx : v <> x) by (intros ->; apply Nv1; left; reflexivity).
  unfold all_sides. cbn [flat_map sides app]. fold (all_sides ts). constructor; [|constructor; [|constructor; [|apply IH, N2]]].
  - intros [K|[K|K]]; [injection K; congruence|injection K; congruence|]. destruct (sides_in (cutsN_in _ _ _ _ H) K). contradiction.
  - intros [K|K]; [injection K; congruence|]. destruct (sides_in (cutsN_in _ _ _ _ H) K). contradiction.
  - intros K. apply (cutsN_noback _ _ _ _ H N2 u x); [|exact K]. apply (Permutation_in (l := (u, x) :: pairsP (x :: r ++ [u]))); [symmetry; exact Q1|left; reflexivity].
Qed.
Lemma cutsN_proper n l ts l' : cutsN n l ts l' -> NoDup l -> proper_faces ts.
Proof.
  induction 1 as [l|l u v x o l1 ts l' T C H IH]; intros N; [constructor|].
  destruct (tipN_rot _ _ _ _ _ _ T) as (r & P & P1 & Q & Q1). assert (N1 : NoDup (u :: v :: x :: r)) by (eapply perm_NoDup; eassumption).
  inversion N1 as [|y m Nu Nv E]; subst. inversion Nv as [|y m Nv1 Nx E]; subst.
  constructor; [|apply IH; eapply perm_NoDup; [symmetry; exact P1|]; constructor; [intros K; apply Nu; right; exact K|exact Nx]].
  split; [intros ->; apply Nu; left; reflexivity|]. split; [intros ->; apply Nv1; left; reflexivity|intros ->; apply Nu; right; left; reflexivity].
Qed.
End Num.

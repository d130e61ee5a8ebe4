(** Prisms and pyramids: the polyhedra built. *)
From Coq Require Import Permutation.
From Verif Require Import Base SpecClip SpecMesh ModelPrism FactsVec FactsAlg FactsElem FactsClip FactsClip2 FactsClip3 FactsClip4 FactsPH FactsPH2 FactsMesh5 FactsPrism FactsPrism2 FactsPrism3.
From Coq Require Import List Lia Lra.
Import ListNotations.
Open Scope R_scope.

Lemma scanNum_factor vs k n : 0 < k -> forall aft bef vp t, clipScanNum vs (vscale k n) bef vp aft t = clipScanNum vs n bef vp aft t.
Proof. intros K. induction aft as [|p aft IH]; intros bef vp t; [reflexivity|]. cbn [clipScanNum]. rewrite (accept_factor k n _ K). destruct (_ && _)%bool; [reflexivity|apply IH]. Qed.
Lemma loopNum_factor vs k n : 0 < k -> forall fuel l, clipLoopNum vs fuel (vscale k n) l = clipLoopNum vs fuel n l.
Proof. intros K. induction fuel as [|f IH]; intros l; cbn [clipLoopNum]; [reflexivity|]. destruct (Nat.leb (length l) 2); [reflexivity|]. destruct l as [|v r]; [reflexivity|]. rewrite (scanNum_factor vs k n K). destruct (clipScanNum vs n [] v r None) as ([t|] & l'); [rewrite IH; reflexivity|reflexivity]. Qed.
Lemma triN vs L : L <> [] -> exists ts, zTriangulateNum vs L = Some ts /\ length ts = (length L - 2)%nat /\ firstOK L ts /\
  (stuck (map (vertAt vs) L) \/ exists i l', leftmost (map (vertAt vs) L) i /\ cutsN vs (corner_normal (map (vertAt vs) L) i) L ts l' /\ (length l' <= 2)%nat).
Proof.
  intros Ne. unfold zTriangulateNum. destruct (map (vertAt vs) L) as [|v r] eqn:EL; [destruct L; [congruence|discriminate]|]. destruct (norm_extreme v r) as (i & k & Lm & K & E). rewrite E, (loopNum_factor vs k _ K).
  destruct (runN vs (corner_normal (v :: r) i) (length L) L (Nat.le_refl _)) as (ts & Et & Lt & Ft & Rn). exists ts. split; [exact Et|]. split; [exact Lt|]. split; [exact Ft|]. destruct Rn as [(l' & C & L')|(dn & rest & l' & _ & C & Z)].
  - right. exists i, l'. auto.
  - left. apply cutsN_reduces in C. rewrite EL in C. exists i, (map (posOf vs) dn), (map (vertAt vs) l'). auto.
Qed.
Lemma leftmost_sh s l i : leftmost l i -> leftmost (map (sh s) l) i.
Proof.
  intros (L & A & B). unfold leftmost. rewrite map_length. assert (E : forall j, (j < length l)%nat -> vx (nth j (map (sh s) l) v3zero) = vx (nth j l v3zero) + vx s).
  { intros j J. rewrite (nth_indep _ _ (sh s v3zero)) by (rewrite map_length; exact J). rewrite map_nth. reflexivity. }
  split; [exact L|]. split; intros j J; rewrite !E by lia; [specialize (A j J)|specialize (B j J)]; lra.
Qed.
Lemma corner_sh s l i : (i < length l)%nat -> corner_normal (map (sh s) l) i = corner_normal l i.
Proof.
  intros I. unfold corner_normal. cbv zeta. rewrite map_length. assert (E : forall j, (j < length l)%nat -> nth j (map (sh s) l) v3zero = sh s (nth j l v3zero)).
  { intros j J. rewrite (nth_indep _ _ (sh s v3zero)) by (rewrite map_length; exact J). apply map_nth. }
  rewrite !E by (try exact I; apply Nat.mod_upper_bound; lia). rewrite !sh_sub. reflexivity.
Qed.
Lemma stuck_sh s l : stuck (map (sh s) l) -> stuck l.
Proof.
  intros (i & ts & l' & Lm & R & E). exists i. assert (B : map (sh (vneg s)) (map (sh s) l) = l) by (rewrite map_map; erewrite map_ext; [apply map_id|intros; apply sh_back]).
  assert (I : (i < length l)%nat) by (destruct Lm as (L & _); rewrite map_length in L; exact L). apply (leftmost_sh (vneg s)) in Lm. rewrite B in Lm. rewrite (corner_sh s l i I) in *. exists (map (sh3 (vneg s)) ts), (map (sh (vneg s)) l'). split; [exact Lm|]. split; [|apply sh_earless, E]. apply (sh_reduces (vneg s)) in R. rewrite B in R. exact R.
Qed.

(** ** the faces *)
Definition idx (f : face) : nat * nat * nat := (fi0 f, fi1 f, fi2 f).
Lemma idx_face vs f : idx (faceNum vs f) = f. Proof. destruct f as ((a, b), c). reflexivity. Qed.
Lemma idx_flip vs f : idx (faceNumFlip vs f) = turned f. Proof. destruct f as ((a, b), c). reflexivity. Qed.
Lemma idx_map vs l : map idx (map (faceNum vs) l) = l.
Proof. rewrite map_map. erewrite map_ext; [apply map_id|]. apply idx_face. Qed.
Lemma idx_mapF vs l : map idx (map (faceNumFlip vs) l) = map turned l.
Proof. rewrite map_map. apply map_ext. apply idx_flip. Qed.
Lemma turned_turned l : map turned (map turned l) = l.
Proof. rewrite map_map. erewrite map_ext; [apply map_id|]. intros ((a, b), c). reflexivity. Qed.
Definition freshF (vs : list vec3) (f : face) : Prop := fnrm f = tnorm (snd (zTri3DCreate (vpos vs (fi0 f)) (vpos vs (fi1 f)) (vpos vs (fi2 f)))).
Lemma fresh_num vs f : freshF vs (faceNum vs f). Proof. destruct f as ((a, b), c). reflexivity. Qed.
Lemma fresh_flip vs f : freshF vs (faceNumFlip vs f). Proof. destruct f as ((a, b), c). reflexivity. Qed.
(** the first triangle tells the way *)
Lemma tip_next n u v x o l1 : (3 <= n)%nat -> tipN (seq 0 n) u v x o l1 -> v = nxt n u /\ (u < n)%nat /\ x <> v.
Proof.
  intros N T. destruct (tipN_rot _ _ _ _ _ _ T) as (r & P & _ & Q & _). assert (I : List.In (u, v) (pairsL (seq 0 n))) by (eapply Permutation_in; [symmetry; exact Q|left; reflexivity]).
  rewrite pairs_ring in I by lia. apply in_map_iff in I. destruct I as (i & E & I). apply in_seq in I. cbn [plus] in E. injection E as -> ->. split; [reflexivity|]. split; [lia|]. intros ->. assert (D : NoDup (u :: v :: v :: r)) by (eapply Permutation_NoDup; [exact P|apply seq_NoDup]). inversion D as [|? ? _ D1 E1]; subst. inversion D1 as [|? ? D2 _ E2]; subst. apply D2. left. reflexivity.
Qed.
Lemma flip_false vs n u v x o l1 : (3 <= n)%nat -> tipN (seq 0 n) u v x o l1 -> sideFlip n (faceNumFlip vs (u, v, x)) = Some false /\ sideFlip n (faceNum vs (u, v, x)) = Some true.
Proof.
  intros N T. destruct (tip_next n u v x o l1 N T) as (E & _ & D). unfold sideFlip, faceNumFlip, faceNum. cbn [fi0 fi1 fi2]. fold nxt. fold (nxt n u). rewrite <- E. rewrite Nat.eqb_refl. split; [|reflexivity]. destruct (Nat.eqb_spec x v); [contradiction|]. reflexivity.
Qed.
Definition alignN vs ref f := if Rltb (zVec3DInnerProd ref (fnrm (faceNum vs f))) 0 then faceNumFlip vs f else faceNum vs f.
Lemma align_flip vs n ref t r : (3 <= n)%nat -> firstOK (seq 0 n) (t :: r) -> exists b, sideFlip n (alignN vs ref t) = Some b.
Proof. intros N F. destruct t as ((u, v), x). destruct F as (o & l1 & T). destruct (flip_false vs n u v x o l1 N T) as (A & B). unfold alignN. destruct (Rltb _ 0); eauto. Qed.
Definition prismVerts (l : list vec3) (s : vec3) : list vec3 := l ++ map (fun b => zVec3DAdd b s) l.
Definition sidesOf n : list (nat * nat * nat) := mantle n.
Lemma sides_eq vs flip n : flat_map (fun i => let i1 := zPH3DLoopNext n i in [sideFace vs flip (i, i1, (i1 + n)%nat); sideFace vs flip (i, (i1 + n)%nat, (i + n)%nat)]) (seq 0 n) = map (sideFace vs flip) (mantle n).
Proof. unfold mantle. rewrite map_flat. apply flat_ext. intros i _. reflexivity. Qed.
Lemma fan_eq vs flip n : map (fun i => sideFace vs flip (i, zPH3DLoopNext n i, n)) (seq 0 n) = map (sideFace vs flip) (cone_fan n).
Proof. unfold cone_fan. rewrite map_map. reflexivity. Qed.
Lemma idx_side vs flip l : map idx (map (sideFace vs flip) l) = if flip then map turned l else l.
Proof. destruct flip; [apply idx_mapF|apply idx_map]. Qed.
Lemma align_idx vs ref l g : (forall f, List.In f l -> Rltb (zVec3DInnerProd ref (fnrm (faceNum vs f))) 0 = g) -> map idx (map (alignN vs ref) l) = if g then map turned l else l.
Proof.
  intros H. rewrite map_map. assert (E : forall f, List.In f l -> idx (alignN vs ref f) = if g then turned f else f). { intros f I. unfold alignN. rewrite (H f I). destruct g; [apply idx_flip|apply idx_face]. }
  rewrite (map_ext_in _ _ l E). destruct g; [reflexivity|apply map_id].
Qed.
Lemma align_fresh vs ref f : freshF vs (alignN vs ref f).
Proof. unfold alignN. destruct (Rltb _ 0); [apply fresh_flip|apply fresh_num]. Qed.
Lemma side_fresh vs flip f : freshF vs (sideFace vs flip f).
Proof. unfold sideFace. destruct flip; [apply fresh_flip|apply fresh_num]. Qed.
(** ** shape of the results, whatever the loop *)
Lemma mantle_len n : length (mantle n) = (2 * n)%nat.
Proof. unfold mantle. rewrite (FactsMesh5.flat_len _ 2) by reflexivity. rewrite seq_length. lia. Qed.
Lemma fan_len n : length (cone_fan n) = n.
Proof. unfold cone_fan. rewrite map_length, seq_length. reflexivity. Qed.
Lemma prism_form l s : (3 <= length l)%nat -> let n := length l in let vs := prismVerts l s in exists tb tt flip,
  zTriangulateNum vs (seq 0 n) = Some tb /\ zTriangulateNum vs (seq n n) = Some tt /\ length tb = (n - 2)%nat /\ length tt = (n - 2)%nat /\ firstOK (seq 0 n) tb /\ match tb with t :: _ => sideFlip n (alignN vs (zVec3DRev s) t) = Some flip | [] => False end /\
  zPH3DCreatePrism l s = Some (Some (PH vs (map (alignN vs (zVec3DRev s)) tb ++ map (alignN vs (zVec3DRev (zVec3DRev s))) tt ++ map (sideFace vs flip) (mantle n)))).
Proof.
  intros N n vs. destruct (triN vs (seq 0 n)) as (tb & Eb & Lb & Fb & _); [unfold n; destruct l; [cbn in N; lia|discriminate]|]. destruct (triN vs (seq n n)) as (tt & Et & Lt & _ & _); [unfold n; destruct l; [cbn in N; lia|discriminate]|]. rewrite seq_length in Lb, Lt.
  destruct tb as [|t tb]; [cbn in Lb; unfold n in Lb; lia|]. destruct (align_flip vs n (zVec3DRev s) t tb N Fb) as (flip & Ef). exists (t :: tb), tt, flip. split; [exact Eb|]. split; [exact Et|]. split; [exact Lb|]. split; [exact Lt|]. split; [exact Fb|]. split; [exact Ef|].
  unfold zPH3DCreatePrism. fold n. fold (prismVerts l s). fold vs. cbv zeta. unfold zPH3DSweepBottom. rewrite Eb, Et. fold (alignN vs (zVec3DRev s)). fold (alignN vs (zVec3DRev (zVec3DRev s))). cbn [map]. rewrite Ef.
  destruct (Nat.ltb_spec (2 * (n - 2)) (length (alignN vs (zVec3DRev s) t :: map (alignN vs (zVec3DRev s)) tb) + length (map (alignN vs (zVec3DRev (zVec3DRev s))) tt))) as [Q|Q].
  { exfalso. cbn [length] in *. rewrite !map_length in Q. lia. }
  rewrite <- sides_eq. reflexivity.
Qed.
Lemma pyr_form l a : (3 <= length l)%nat -> let n := length l in let vs := l ++ [a] in let ref := zVec3DSub (vertAt vs 0) a in exists tb flip,
  zTriangulateNum vs (seq 0 n) = Some tb /\ length tb = (n - 2)%nat /\ firstOK (seq 0 n) tb /\ match tb with t :: _ => sideFlip n (alignN vs ref t) = Some flip | [] => False end /\
  zPH3DCreatePyramid l a = Some (Some (PH vs (map (alignN vs ref) tb ++ map (sideFace vs flip) (cone_fan n)))).
Proof.
  intros N n vs ref. destruct (triN vs (seq 0 n)) as (tb & Eb & Lb & Fb & _); [unfold n; destruct l; [cbn in N; lia|discriminate]|]. rewrite seq_length in Lb.
  destruct tb as [|t tb]; [cbn in Lb; unfold n in Lb; lia|]. destruct (align_flip vs n ref t tb N Fb) as (flip & Ef). exists (t :: tb), flip. split; [exact Eb|]. split; [exact Lb|]. split; [exact Fb|]. split; [exact Ef|].
  unfold zPH3DCreatePyramid. fold n. fold vs. cbv zeta. fold ref. unfold zPH3DSweepBottom. rewrite Eb. fold (alignN vs ref). cbn [map]. rewrite Ef.
  destruct (Nat.ltb_spec (n - 2) (length (alignN vs ref t :: map (alignN vs ref) tb))) as [Q|Q]; [exfalso; cbn [length] in *; rewrite map_length in Q; lia|].
  rewrite <- fan_eq. reflexivity.
Qed.

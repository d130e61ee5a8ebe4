(** Facts about the iterative closest point method. *)
From Verif Require Export FactsIcp FactsFrame.
From Coq Require Import Lra Lia List Permutation.
Import ListNotations.
Open Scope R_scope.

(** ** one round *)
Fixpoint taken (sel : nat -> bool) (k : nat) (l : list vec3) : list vec3 :=
  match l with [] => [] | p :: l => if sel k then p :: taken sel (S k) l else taken sel (S k) l end.
Lemma taken_in sel l : forall k p, List.In p (taken sel k l) <-> exists i, nth_error l i = Some p /\ sel (k + i)%nat = true.
Proof.
  induction l as [|q l IH]; intros k p; cbn [taken]; [split; [intros []|intros ([|i] & E & _); discriminate]|].
  assert (X : (exists i, nth_error (q :: l) i = Some p /\ sel (k + i)%nat = true) <-> (q = p /\ sel k = true) \/ List.In p (taken sel (S k) l)).
  { rewrite IH. split.
    - intros ([|i] & E & S); [left; cbn in E; rewrite Nat.add_0_r in S; split; congruence|right; exists i; split; [exact E|]; rewrite <- S; f_equal; lia].
    - intros [(E & S)|(i & E & S)]; [exists 0%nat; rewrite Nat.add_0_r; split; [cbn; congruence|exact S]|exists (Datatypes.S i); split; [exact E|]; rewrite <- S; f_equal; lia]. }
  rewrite X. destruct (sel k); cbn [List.In]; intuition congruence.
Qed.
Lemma taken_length sel l : forall k, (length (taken sel k l) <= length l)%nat.
Proof. induction l as [|q l IH]; intros k; cbn [taken length]; [lia|]. specialize (IH (S k)). destruct (sel k); cbn [length]; lia. Qed.
Definition closest (f : frame3) (l' : list vec3) (p q : vec3) : Prop := List.In q l' /\ forall y, List.In y l' -> dist (act f p) q <= dist (act f p) y.
Definition addr (d : data vec3) (l : list vec3) : Prop := user_data d /\ d_method d = MAddrList /\ contents d = l.
Lemma addr_holds d l : addr d l -> holds d l. Proof. intros (U & _ & C). apply wf_holds; assumption. Qed.
Lemma addr_snoc d l v : addr d l -> addr (fst (zVecXDDataAdd d v)) (l ++ [v]).
Proof. intros (U & M & C). destruct (addr_add d v (or_introl M)) as (_ & A & B). split; [apply add_user; exact U|]. split; congruence. Qed.
Definition selects (rate : R) (rand : nat -> R) (k : nat) : bool := negb (Rltb rate (rand k)).
Lemma round_fold l' f rate rand l : l' <> [] -> forall k e ss sd ls ld, addr ss ls -> addr sd ld -> exists e' ss' sd' qs,
  fold_brk (icp_body (fold_left zVec3DTreeAddPoint l' zVec3DTreeInit) f rate rand) (Some (IS k e ss sd)) l = Some (IS (k + length l) e' ss' sd') /\
  addr ss' (ls ++ taken (selects rate rand) k l) /\ addr sd' (ld ++ qs) /\ Forall2 (closest f l') (taken (selects rate rand) k l) qs /\
  e <= e' /\ Forall2 (fun p q => dist (act f p) q <= e') (taken (selects rate rand) k l) qs /\ (e' = e \/ exists p, List.In p (taken (selects rate rand) k l) /\ forall y, List.In y l' -> e' <= dist (act f p) y).
Proof.
  intros NE. induction l as [|p l IH]; intros k e ss sd ls ld HS HD.
  - exists e, ss, sd, []. cbn [fold_brk taken length]. rewrite !app_nil_r, Nat.add_0_r. split; [reflexivity|]. split; [exact HS|]. split; [exact HD|]. split; [constructor|]. split; [lra|]. split; [constructor|left; reflexivity].
  - cbn [fold_brk taken length]. unfold icp_body at 1. cbn [is_k is_error is_src is_dest]. assert (SE : selects rate rand k = negb (Rltb rate (rand k))) by reflexivity. rewrite SE. destruct (Rltb rate (rand k)) eqn:SK; cbn [negb].
    + destruct (IH (S k) e ss sd ls ld HS HD) as (e' & ss' & sd' & qs & E & G). exists e', ss', sd', qs. rewrite E. split; [do 2 f_equal; lia|exact G].
    + destruct (tree_nn l' (act f p) NE) as (n & i & q & EN & _ & PN & IN & BN). rewrite xform_spec, EN, PN. set (d0 := dist q (act f p)) in *.
      destruct (IH (S k) (if Rltb e d0 then d0 else e) _ _ _ _ (addr_snoc ss ls p HS) (addr_snoc sd ld q HD)) as (e' & ss' & sd' & qs & E & G1 & G2 & G3 & G4 & G5 & G6).
      exists e', ss', sd', (q :: qs). rewrite E. rewrite <- app_assoc in G1, G2. cbn [app] in G1, G2. assert (ED : d0 = dist (act f p) q) by apply dist_sym. assert (M : e <= e' /\ d0 <= e') by (destruct (Rltb_reflect e d0); lra).
      split; [do 2 f_equal; lia|]. split; [exact G1|]. split; [exact G2|]. split.
      { constructor; [|exact G3]. split; [eapply nth_error_In; exact IN|]. intros y Hy. rewrite <- ED. rewrite (dist_sym _ y). apply BN. exact Hy. }
      split; [lra|]. split; [constructor; [lra|exact G5]|].
      assert (B : forall y, List.In y l' -> d0 <= dist (act f p) y) by (intros y Hy; rewrite (dist_sym _ y); apply BN; exact Hy).
      destruct G6 as [G6|(x & X1 & X2)]; [|right; exists x; split; [right; exact X1|exact X2]]. destruct (Rltb_reflect e d0); [right; exists p; split; [left; reflexivity|intros y Hy; rewrite G6; apply B; exact Hy]|left; exact G6].
Qed.
Lemma round_ok l' f rate rand src l : l' <> [] -> holds src l -> exists src' s qs,
  while_fetch (fuel_of src) (zVecXDDataRewind src) (Some (IS 0 0 zVecXDDataInitAddrList zVecXDDataInitAddrList)) (icp_body (fold_left zVec3DTreeAddPoint l' zVec3DTreeInit) f rate rand) = Some (src', Some s) /\ holds src' l /\
  let m := taken (selects rate rand) 0 l in holds (is_src s) m /\ holds (is_dest s) qs /\ Forall2 (closest f l') m qs /\ 0 <= is_error s /\ Forall2 (fun p q => dist (act f p) q <= is_error s) m qs /\
  (is_error s = 0 \/ exists p, List.In p m /\ forall y, List.In y l' -> is_error s <= dist (act f p) y).
Proof.
  intros NE H. match goal with |- context [while_fetch _ _ ?s ?b] => destruct (while_holds b src l s H) as (src' & E & H') end.
  assert (A0 : addr zVecXDDataInitAddrList []) by (split; [exact U_addrlist|split; reflexivity]).
  destruct (round_fold l' f rate rand l NE 0%nat 0 _ _ [] [] A0 A0) as (e' & ss' & sd' & qs & EF & G1 & G2 & G3 & G4 & G5 & G6). rewrite EF in E. exists src', (IS (0 + length l) e' ss' sd'), qs. split; [exact E|]. split; [exact H'|]. cbv zeta. cbn [is_src is_dest is_error].
  split; [apply addr_holds; exact G1|]. split; [apply addr_holds; exact G2|]. auto.
Qed.
(** ** limits *)
Lemma svd_more n m a r : (n <= m)%nat -> zMat3DSVD n a = Some r -> zMat3DSVD m a = Some r.
Proof. intros L E. unfold zMat3DSVD in *. destruct (zMat3DSymEig n _) as [q|] eqn:Q; [|discriminate]. rewrite (symeig_more n m _ _ L Q). exact E. Qed.
Lemma ident_more n m s d r : (n <= m)%nat -> zVec3DDataIdentFrame n s d = Some r -> zVec3DDataIdentFrame m s d = Some r.
Proof.
  intros L E. unfold zVec3DDataIdentFrame in *. destruct (negb _); [exact E|]. destruct (Nat.ltb _ _); [exact E|]. destruct (zVec3DDataBarycenter s) as [[s1 [pgo|]]|]; try discriminate. destruct (zVec3DDataBarycenter d) as [[d1 [pg|]]|]; try discriminate.
  destruct (while_fetch2 _ _ _ _ _) as [[[s2 d2] [so cov]]|]; [|discriminate]. unfold ident_solve in *. destruct (zMat3DDiv cov _) as [c|]; [|discriminate]. destruct (zMat3DSVD n c) as [q|] eqn:Q; [|discriminate]. rewrite (svd_more n m _ _ L Q). exact E.
Qed.
(** ** the loop *)
Section Loop.
Variables (l l' : list vec3) (rate tol : R) (rand : nat -> nat -> R).
Hypothesis NE : l' <> [].
Let tree := fold_left zVec3DTreeAddPoint l' zVec3DTreeInit.
Lemma loop_done k : forall i src f, holds src l -> exists n, forall fuel, (n <= fuel)%nat -> exists src' r, icp_loop fuel tree rate tol rand k i src f = Some (src', r) /\ holds src' l.
Proof.
  induction k as [|k IH]; intros i src f H; [exists 0%nat; intros; eexists; eexists; split; [reflexivity|exact H]|]. cbn [icp_loop].
  destruct (round_ok l' f rate (rand i) src l NE H) as (src' & s & qs & E & H' & HS & HD & _). fold tree in E. rewrite E. destruct (Rltb (is_error s) tol); [exists 0%nat; intros; eexists; eexists; split; [reflexivity|exact H']|].
  destruct (ident_done _ _ _ _ HS HD) as (n1 & s1 & d1 & r1 & E1 & _). destruct r1 as [|att|g].
  - destruct (IH (S i) src' f H') as (n2 & H2). exists (Nat.max n1 n2). intros fuel L. rewrite (ident_more n1 fuel _ _ _ ltac:(lia) E1). apply H2. lia.
  - exists n1. intros fuel L. rewrite (ident_more n1 fuel _ _ _ L E1). eexists. eexists. split; [reflexivity|exact H'].
  - destruct (IH (S i) src' g H') as (n2 & H2). exists (Nat.max n1 n2). intros fuel L. rewrite (ident_more n1 fuel _ _ _ ltac:(lia) E1). apply H2. lia.
Qed.
Lemma forall2_in {A B} (P : A -> B -> Prop) xs ys : Forall2 P xs ys -> forall x, List.In x xs -> exists y, P x y.
Proof. induction 1; intros z Hz; [destruct Hz|]. destruct Hz as [<-|Hz]; eauto. Qed.
Lemma forall2_in2 {A B} (P Q : A -> B -> Prop) xs ys : Forall2 P xs ys -> Forall2 Q xs ys -> forall x, List.In x xs -> exists y, P x y /\ Q x y.
Proof. intros F. induction F; intros G z Hz; [destruct Hz|]. inversion G; subst. destruct Hz as [<-|Hz]; eauto. Qed.
Lemma loop_converged fuel k : forall i src f src' j g, holds src l -> icp_loop fuel tree rate tol rand k i src f = Some (src', ICPConverged j g) ->
  (i <= j < i + k)%nat /\ 0 < tol /\ matched (fun n => rand j n <= rate) tol g l l'.
Proof.
  induction k as [|k IH]; intros i src f src' j g H E; cbn [icp_loop] in E; [discriminate|].
  destruct (round_ok l' f rate (rand i) src l NE H) as (src1 & s & qs & E0 & H' & HS & HD & C & EP & M & _). fold tree in E0. rewrite E0 in E. destruct (Rltb_reflect (is_error s) tol) as [K|K].
  - inversion E; subst. split; [lia|]. split; [lra|]. intros n p Hp Hs. assert (IN : List.In p (taken (selects rate (rand j)) 0 l)). { apply taken_in. exists n. split; [exact Hp|]. unfold selects. cbn [Nat.add]. destruct (Rltb_reflect rate (rand j n)); [lra|reflexivity]. }
    destruct (forall2_in2 _ _ _ _ C M p IN) as (q & (Q1 & _) & Q2). exists q. split; [exact Q1|lra].
  - destruct (zVec3DDataIdentFrame fuel (is_src s) (is_dest s)) as [[[s1 d1] [|att|g1]]|]; try discriminate; destruct (IH _ _ _ _ _ _ H' E) as (A & B & D); (split; [lia|split; assumption]).
Qed.
Lemma loop_nan fuel k : forall i src f src', holds src l -> icp_loop fuel tree rate tol rand k i src f = Some (src', ICPNaN) ->
  exists j c, (i <= j < i + k)%nat /\ (3 <= length (taken (selects rate (rand j)) 0 l))%nat /\ forall n p, nth_error l n = Some p -> rand j n <= rate -> p = c.
Proof.
  induction k as [|k IH]; intros i src f src' H E; cbn [icp_loop] in E; [discriminate|].
  destruct (round_ok l' f rate (rand i) src l NE H) as (src1 & s & qs & E0 & H' & HS & HD & C & EP & M & _). fold tree in E0. rewrite E0 in E. destruct (Rltb_reflect (is_error s) tol) as [K|K]; [discriminate|].
  destruct (zVec3DDataIdentFrame fuel (is_src s) (is_dest s)) as [[[s1 d1] [|att|g1]]|] eqn:EI; try discriminate.
  - destruct (IH _ _ _ _ H' E) as (j & c & J & T). exists j, c. split; [lia|exact T].
  - destruct (ident_total _ _ _ _ _ _ _ _ HS HD EI) as (_ & L3 & c & CC). exists i, c. split; [lia|]. split; [exact L3|]. intros n p Hp Hs. apply CC. apply taken_in. exists n. split; [exact Hp|]. unfold selects. cbn [Nat.add]. destruct (Rltb_reflect rate (rand i n)); [lra|reflexivity].
  - destruct (IH _ _ _ _ H' E) as (j & c & J & T). exists j, c. split; [lia|exact T].
Qed.
Lemma loop_few fuel k : (forall j, (length (taken (selects rate (rand j)) 0 l) < 3)%nat) -> forall i src f src' r, holds src l -> icp_loop fuel tree rate tol rand k i src f = Some (src', r) -> r = ICPGaveUp f \/ exists j, r = ICPConverged j f.
Proof.
  intros FEW. induction k as [|k IH]; intros i src f src' r H E; cbn [icp_loop] in E; [inversion E; auto|].
  destruct (round_ok l' f rate (rand i) src l NE H) as (src1 & s & qs & E0 & H' & HS & HD & C & EP & M & _). fold tree in E0. rewrite E0 in E. destruct (Rltb_reflect (is_error s) tol) as [K|K]; [inversion E; eauto|].
  rewrite (ident_null fuel _ _ _ _ HS HD (or_intror (FEW i))) in E. exact (IH _ _ _ _ _ H' E).
Qed.
End Loop.
(** ** the whole *)
Lemma icp_start fuel rand src dest rate tol l l' : holds src l -> holds dest l' -> l <> [] -> l' <> [] -> exists src' dest', holds src' l /\ holds dest' l' /\
  zVec3DDataICP fuel rand src dest rate tol = match icp_loop fuel (fold_left zVec3DTreeAddPoint l' zVec3DTreeInit) rate tol rand ICP_MAXITERNUM 0 src' (centring l l') with Some (s, r) => Some (s, dest', r) | None => None end.
Proof.
  intros HS HD NE NE'. unfold zVec3DDataICP. destruct (to_tree dest l' HD) as (d1 & E1 & H1). rewrite E1. unfold zVec3DDataICPInit. destruct (bary_holds src l HS NE) as (s2 & E2 & H2). destruct (bary_holds d1 l' H1 NE') as (d2 & E3 & H3). rewrite E2, E3. exists s2, d2. split; [exact H2|split; [exact H3|reflexivity]].
Qed.
Lemma icp_done rand src dest rate tol l l' : holds src l -> holds dest l' -> l <> [] -> l' <> [] -> exists n, forall fuel, (n <= fuel)%nat -> exists src' dest' r, zVec3DDataICP fuel rand src dest rate tol = Some (src', dest', r).
Proof.
  intros HS HD NE NE'.
  unfold zVec3DDataICP. destruct (to_tree dest l' HD) as (d1 & E1 & H1). rewrite E1. unfold zVec3DDataICPInit. destruct (bary_holds src l HS NE) as (s2 & E2 & H2). destruct (bary_holds d1 l' H1 NE') as (d2 & E3 & H3). rewrite E2, E3.
  destruct (loop_done l l' rate tol rand NE' ICP_MAXITERNUM 0%nat s2 (centring l l') H2) as (n' & L'). exists n'. intros fuel F. destruct (L' fuel F) as (s3 & r & E & _). change (F3 (zVec3DSub (vmean l') (vmean l)) ZMAT3DIDENT) with (centring l l'). rewrite E. eauto.
Qed.
Lemma icp_empty fuel rand src dest rate tol l l' : holds src l -> holds dest l' -> l = [] \/ l' = [] -> zVec3DDataICP fuel rand src dest rate tol = None.
Proof.
  intros HS HD Z. unfold zVec3DDataICP. destruct (to_tree dest l' HD) as (d1 & E1 & H1). rewrite E1. unfold zVec3DDataICPInit.
  assert (X : forall d, holds d [] -> zVec3DDataBarycenter d = Some (d, None)). { intros d H. destruct (holds_wf d [] H) as [W C]. unfold zVec3DDataBarycenter. rewrite empty_spec, C by exact W. reflexivity. }
  destruct Z as [->| ->].
  - rewrite (X src HS). reflexivity.
  - rewrite (X d1 H1). destruct (zVec3DDataBarycenter src) as [[s [c|]]|]; reflexivity.
Qed.
Lemma icp_nonempty fuel rand src dest rate tol l l' r : holds src l -> holds dest l' -> zVec3DDataICP fuel rand src dest rate tol = Some r -> l <> [] /\ l' <> [].
Proof. intros HS HD E. split; intros Z; rewrite (icp_empty fuel rand src dest rate tol l l' HS HD) in E by auto; discriminate. Qed.
Lemma icp_converged fuel rand src dest rate tol l l' src' dest' j f : holds src l -> holds dest l' -> zVec3DDataICP fuel rand src dest rate tol = Some (src', dest', ICPConverged j f) ->
  (j < 200)%nat /\ 0 < tol /\ matched (fun n => rand j n <= rate) tol f l l'.
Proof.
  intros HS HD E. destruct (icp_nonempty _ _ _ _ _ _ _ _ _ HS HD E) as [NE NE']. destruct (icp_start fuel rand src dest rate tol l l' HS HD NE NE') as (s & d & Hs & _ & Q). rewrite Q in E. destruct (icp_loop _ _ _ _ _ _ _ _ _) as [[s1 r]|] eqn:L; [|discriminate]. inversion E; subst. clear E.
  destruct (loop_converged l l' rate tol rand NE' fuel _ _ _ _ _ _ _ Hs L) as (A & B & C). unfold ICP_MAXITERNUM in A. split; [lia|auto].
Qed.
Lemma icp_full fuel rand src dest rate tol l l' src' dest' j f : holds src l -> holds dest l' -> 1 <= rate -> (forall i k, rand i k <= 1) -> zVec3DDataICP fuel rand src dest rate tol = Some (src', dest', ICPConverged j f) ->
  forall p, List.In p l -> exists q, List.In q l' /\ dist (act f p) q < tol.
Proof.
  intros HS HD R1 R2 E p Hp. destruct (icp_converged _ _ _ _ _ _ _ _ _ _ _ _ HS HD E) as (_ & _ & M). apply In_nth_error in Hp. destruct Hp as (n & Hn). apply (M n p Hn). specialize (R2 j n). lra.
Qed.
Lemma icp_nan fuel rand src dest rate tol l l' src' dest' : holds src l -> holds dest l' -> zVec3DDataICP fuel rand src dest rate tol = Some (src', dest', ICPNaN) ->
  exists n1 n2 p, n1 <> n2 /\ nth_error l n1 = Some p /\ nth_error l n2 = Some p.
Proof.
  intros HS HD E. destruct (icp_nonempty _ _ _ _ _ _ _ _ _ HS HD E) as [NE NE']. destruct (icp_start fuel rand src dest rate tol l l' HS HD NE NE') as (s & d & Hs & _ & Q). rewrite Q in E. destruct (icp_loop _ _ _ _ _ _ _ _ _) as [[s1 r]|] eqn:L; [|discriminate]. inversion E; subst. clear E.
  destruct (loop_nan l l' rate tol rand NE' fuel _ _ _ _ _ Hs L) as (j & c & _ & L3 & CC).
  assert (X : forall l0 k, (2 <= length (taken (selects rate (rand j)) k l0))%nat -> exists n1 n2 p1 p2, n1 <> n2 /\ nth_error l0 n1 = Some p1 /\ nth_error l0 n2 = Some p2 /\ selects rate (rand j) (k + n1) = true /\ selects rate (rand j) (k + n2) = true).
  { induction l0 as [|q l0 IH]; intros k G; cbn [taken length] in G; [lia|]. destruct (selects rate (rand j) k) eqn:SK.
    - cbn [length] in G. destruct (taken (selects rate (rand j)) (S k) l0) as [|p2 rest] eqn:T; [cbn in G; lia|]. assert (I : List.In p2 (taken (selects rate (rand j)) (S k) l0)) by (rewrite T; left; reflexivity). apply taken_in in I. destruct I as (i & I1 & I2). exists 0%nat, (S i), q, p2. split; [lia|]. split; [reflexivity|]. split; [exact I1|]. rewrite Nat.add_0_r. split; [exact SK|]. rewrite <- I2. f_equal. lia.
    - destruct (IH _ G) as (n1 & n2 & p1 & p2 & N & A & B & C & D). exists (S n1), (S n2), p1, p2. split; [lia|]. split; [exact A|]. split; [exact B|]. split; [rewrite <- C|rewrite <- D]; f_equal; lia. }
  destruct (X l 0%nat ltac:(lia)) as (n1 & n2 & p1 & p2 & N & A & B & C & D). cbn [Nat.add] in C, D. unfold selects in C, D. exists n1, n2, c. split; [exact N|].
  destruct (Rltb_reflect rate (rand j n1)); [discriminate|]. destruct (Rltb_reflect rate (rand j n2)); [discriminate|]. rewrite A, B. rewrite (CC n1 p1 A ltac:(lra)), (CC n2 p2 B ltac:(lra)). auto.
Qed.
(** ** the first round *)
Lemma icp_first rand src dest rate tol l l' fuel : holds src l -> holds dest l' -> l <> [] -> l' <> [] -> 0 < tol ->
  (forall n p, nth_error l n = Some p -> rand 0%nat n <= rate -> exists q, List.In q l' /\ dist (act (centring l l') p) q < tol) ->
  exists src' dest', zVec3DDataICP fuel rand src dest rate tol = Some (src', dest', ICPConverged 0 (centring l l')).
Proof.
  intros HS HD NE NE' T M. destruct (icp_start fuel rand src dest rate tol l l' HS HD NE NE') as (s & d & Hs & _ & ->). assert (EK : exists k, ICP_MAXITERNUM = S k) by (exists 199%nat; reflexivity). destruct EK as (k & ->). cbn [icp_loop].
  destruct (round_ok l' (centring l l') rate (rand 0%nat) s l NE' Hs) as (s1 & st & qs & E0 & H' & _ & _ & C & EP & _ & ER). rewrite E0.
  destruct (Rltb_reflect (is_error st) tol) as [K|K]; [eauto|]. exfalso. destruct ER as [Z|(p & P1 & P2)]; [lra|]. apply taken_in in P1. destruct P1 as (n & N1 & N2). cbn [Nat.add] in N2. unfold selects in N2. destruct (Rltb_reflect rate (rand 0%nat n)); [discriminate|].
  destruct (M n p N1 ltac:(lra)) as (q & Q1 & Q2). specialize (P2 q Q1). lra.
Qed.
Lemma mean_perm f l m : Permutation l m -> mean f l = mean f m.
Proof.
  intros P. unfold mean. rewrite (Permutation_length P). f_equal. induction P; unfold rsum in *; cbn [fold_right]; lra.
Qed.
Lemma icp_shift rand src dest rate tol l l' t fuel : holds src l -> holds dest l' -> l <> [] -> 0 < tol -> Permutation l' (map (vadd t) l) ->
  exists src' dest' f, zVec3DDataICP fuel rand src dest rate tol = Some (src', dest', ICPConverged 0 f) /\ forall p, act f p = vadd t p.
Proof.
  intros HS HD NE T P. assert (NE' : l' <> []). { intros ->. apply Permutation_nil in P. destruct l; [congruence|discriminate]. }
  assert (EM : vmean l' = vadd t (vmean l)).
  { assert (E1 : vmean l' = vmean (map (vadd t) l)) by (unfold vmean; f_equal; apply mean_perm; exact P). rewrite E1. assert (E2 : map (vadd t) l = similar 1 (F3 t mid) l) by (unfold similar; apply map_ext; intros p; cbn [fatt fpos]; rewrite mvec_id; apply vec3_ext; cbn; ring).
    rewrite E2, vmean_similar by exact NE. cbn [fatt fpos]. rewrite mvec_id. apply vec3_ext; cbn; ring. }
  assert (A : forall p, act (centring l l') p = vadd t p). { intros p. unfold centring, shift, act. cbn [fatt fpos]. rewrite mvec_id, EM. apply vec3_ext; cbn; ring. }
  destruct (icp_first rand src dest rate tol l l' fuel HS HD NE NE' T) as (s & d & E).
  { intros n p Hp _. exists (vadd t p). split; [rewrite P; apply in_map; eapply nth_error_In; exact Hp|]. rewrite A, dist_zero_self. exact T. }
  eauto.
Qed.
Lemma icp_nosample rand src dest rate tol l l' fuel : holds src l -> holds dest l' -> l <> [] -> l' <> [] -> 0 < tol -> (forall n, (n < length l)%nat -> rate < rand 0%nat n) ->
  exists src' dest', zVec3DDataICP fuel rand src dest rate tol = Some (src', dest', ICPConverged 0 (centring l l')).
Proof.
  intros HS HD NE NE' T N. apply icp_first; auto. intros n p Hp Hs. exfalso. specialize (N n). assert (n < length l)%nat by (apply nth_error_Some; congruence). specialize (N H). lra.
Qed.
Lemma icp_few fuel rand src dest rate tol l l' src' dest' r : holds src l -> holds dest l' -> (length l < 3)%nat -> zVec3DDataICP fuel rand src dest rate tol = Some (src', dest', r) -> r = ICPGaveUp (centring l l') \/ exists j, r = ICPConverged j (centring l l').
Proof.
  intros HS HD F E. destruct (icp_nonempty _ _ _ _ _ _ _ _ _ HS HD E) as [NE NE']. destruct (icp_start fuel rand src dest rate tol l l' HS HD NE NE') as (s & d & Hs & _ & Q). rewrite Q in E. destruct (icp_loop _ _ _ _ _ _ _ _ _) as [[s1 r1]|] eqn:L; [|discriminate]. inversion E; subst. clear E.
  refine (loop_few l l' rate tol rand NE' fuel _ _ _ _ _ _ _ Hs L). intros j. pose proof (taken_length (selects rate (rand j)) l 0). lia.
Qed.
(** ** a round can spoil the alignment, and sampling nothing ends the iteration *)
Lemma dist_le_sq a b c : dist a b <= dist a c -> dot (vsub a b) (vsub a b) <= dot (vsub a c) (vsub a c).
Proof. unfold dist. intros H. rewrite <- !norm_sqr. pose proof (norm_nonneg (vsub a b)). pose proof (norm_nonneg (vsub a c)). nra. Qed.
Lemma dist_sq_le a b k : 0 <= k -> dist a b <= k -> dot (vsub a b) (vsub a b) <= k * k.
Proof. unfold dist. intros K H. rewrite <- !norm_sqr. pose proof (norm_nonneg (vsub a b)). nra. Qed.
Lemma dist_sq_ge a b k : 0 <= k -> k * k <= dot (vsub a b) (vsub a b) -> k <= dist a b.
Proof. unfold dist. intros K H. rewrite <- !norm_sqr in H. pose proof (norm_nonneg (vsub a b)). nra. Qed.
Lemma dist_sq_lt a b k : 0 < k -> dot (vsub a b) (vsub a b) < k * k -> dist a b < k.
Proof. unfold dist. intros K H. rewrite <- !norm_sqr in H. pose proof (norm_nonneg (vsub a b)). nra. Qed.
Lemma icp_worse : exists rand src dest l l' fuel src' dest' g, (forall i k, 0 <= rand i k <= 1) /\ holds src l /\ holds dest l' /\
  zVec3DDataICP fuel rand src dest (1 / 2) 1 = Some (src', dest', ICPConverged 1 g) /\
  (forall p, List.In p l -> exists q, List.In q l' /\ dist (act (centring l l') p) q < 2) /\ (forall p q, List.In p l -> List.In q l' -> 6 < dist (act g p) q).
Proof.
  set (f0 := F3 (V3 0 0 0) mid). set (l' := similar 2 f0 tetra).
  assert (H1 : holds (zVecXDDataAssignArray tetra) tetra) by (split; [constructor|eexists; reflexivity]). assert (H2 : holds (zVecXDDataAssignArray l') l') by (split; [constructor|eexists; reflexivity]).
  set (rand := fun (i k : nat) => match i with O => 0 | _ => 1 end).
  assert (EL : l' = [V3 22 2 2; V3 22 (-2) (-2); V3 18 2 (-2); V3 18 (-2) 2]). { unfold l', similar, tetra, f0. cbn [map fatt fpos]. rewrite !mvec_id. repeat f_equal; apply vec3_ext; cbn; ring. }
  assert (EC : forall p, act (centring tetra l') p = vadd (V3 10 0 0) p). { intros p. unfold centring, shift, act. cbn [fatt fpos]. rewrite mvec_id. unfold l'. rewrite vmean_similar by discriminate. rewrite tetra_mean. unfold f0. cbn [fatt fpos]. rewrite mvec_id. apply vec3_ext; cbn; ring. }
  assert (NE' : l' <> []) by (rewrite EL; discriminate).
  assert (EX : exists fuel src' dest' g, zVec3DDataICP fuel rand (zVecXDDataAssignArray tetra) (zVecXDDataAssignArray l') (1 / 2) 1 = Some (src', dest', ICPConverged 1 g) /\
     (forall x, norm (vsub (mvec (fatt g) x) x) <= 6 * (zTOL / (2 * 1 * (2 * 1))) * norm x) /\ norm (vsub (fpos g) (V3 0 0 0)) <= 20 * (2 * (zTOL / (2 * 1 * (2 * 1)))) * norm (V3 10 0 0)).
  { unfold zVec3DDataICP. destruct (to_tree _ l' H2) as (d1 & E1 & D1). rewrite E1. unfold zVec3DDataICPInit. destruct (bary_holds _ tetra H1 ltac:(discriminate)) as (s2 & E2 & S2). destruct (bary_holds d1 l' D1 NE') as (d2 & E3 & D2). rewrite E2, E3. change (F3 (zVec3DSub (vmean l') (vmean tetra)) ZMAT3DIDENT) with (centring tetra l').
    assert (EK : exists k, ICP_MAXITERNUM = S (S k)) by (exists 198%nat; reflexivity). destruct EK as (k & ->). cbn [icp_loop].
    destruct (round_ok l' (centring tetra l') (1 / 2) (rand 0%nat) s2 tetra NE' S2) as (s3 & st & qs & E4 & S3 & HS & HD & C & EP & M & _). rewrite E4.
    assert (TK : taken (selects (1 / 2) (rand 0%nat)) 0 tetra = tetra). { assert (X : forall n, selects (1 / 2) (rand 0%nat) n = true) by (intros n; unfold selects, rand; destruct (Rltb_reflect (1 / 2) 0); [lra|reflexivity]). unfold taken, tetra. rewrite !X. reflexivity. }
    rewrite TK in *. clear TK E4.
    assert (Q : qs = l'). 
    { rewrite EL in *. unfold tetra in C. inversion C as [|p1 q1 ? r1 C1 F1]; subst. inversion F1 as [|p2 q2 ? r2 C2 F2]; subst. inversion F2 as [|p3 q3 ? r3 C3 F3]; subst. inversion F3 as [|p4 q4 ? r4 C4 F4]; subst. inversion F4; subst. clear C F1 F2 F3 F4 M HD HS.
      destruct C1 as [I1 B1]. destruct C2 as [I2 B2]. destruct C3 as [I3 B3]. destruct C4 as [I4 B4]. specialize (B1 (V3 22 2 2) ltac:(cbn; tauto)). specialize (B2 (V3 22 (-2) (-2)) ltac:(cbn; tauto)). specialize (B3 (V3 18 2 (-2)) ltac:(cbn; tauto)). specialize (B4 (V3 18 (-2) 2) ltac:(cbn; tauto)).
      rewrite EC in B1, B2, B3, B4. apply dist_le_sq in B1. apply dist_le_sq in B2. apply dist_le_sq in B3. apply dist_le_sq in B4. unfold dot, vsub, vadd in B1, B2, B3, B4. cbn [vx vy vz] in B1, B2, B3, B4.
      assert (Q1 : q1 = V3 22 2 2) by (destruct I1 as [<-|[<-|[<-|[<-|[]]]]]; cbn [vx vy vz] in B1; first [reflexivity | exfalso; lra]).
      assert (Q2 : q2 = V3 22 (-2) (-2)) by (destruct I2 as [<-|[<-|[<-|[<-|[]]]]]; cbn [vx vy vz] in B2; first [reflexivity | exfalso; lra]).
      assert (Q3 : q3 = V3 18 2 (-2)) by (destruct I3 as [<-|[<-|[<-|[<-|[]]]]]; cbn [vx vy vz] in B3; first [reflexivity | exfalso; lra]).
      assert (Q4 : q4 = V3 18 (-2) 2) by (destruct I4 as [<-|[<-|[<-|[<-|[]]]]]; cbn [vx vy vz] in B4; first [reflexivity | exfalso; lra]).
      subst. reflexivity. }
    subst qs.
    assert (E1ge : 1 <= is_error st). { pose proof EC as EC1. rewrite EL in EC1. rewrite EL in M. inversion M as [|? ? ? ? M1 _]; subst. rewrite EC1 in M1. apply (dist_sq_le _ _ _ EP) in M1. unfold dot, vsub, vadd in M1. cbn [vx vy vz] in M1. nra. }
    destruct (Rltb_reflect (is_error st) 1) as [K|K]; [lra|].
    destruct (ident_done _ _ _ _ HS HD) as (fuel & s5 & d5 & r5 & E5 & _). pose proof zTOL_pos as T0. pose proof zTOL_small as T1.
    destruct (ident_recover fuel _ _ tetra 2 f0 1 s5 d5 r5 HS HD) as (g & -> & A & B & _); auto; try lra; try exact tetra_extends; try (cbn; lia); try (unfold isometry, f0; cbn [fatt]; rewrite mtr_mid; apply mmul_id_l).
    exists fuel. rewrite E5.
    destruct (round_ok l' g (1 / 2) (rand 1%nat) s3 tetra NE' S3) as (s6 & st6 & qs6 & E6 & S6 & _ & _ & _ & _ & _ & ER). rewrite E6.
    assert (TK : taken (selects (1 / 2) (rand 1%nat)) 0 tetra = []). { assert (X : forall n, selects (1 / 2) (rand 1%nat) n = false) by (intros n; unfold selects, rand; destruct (Rltb_reflect (1 / 2) 1); [reflexivity|lra]). unfold taken, tetra. rewrite !X. reflexivity. }
    rewrite TK in ER. destruct ER as [ER|(p & [] & _)]. rewrite ER. destruct (Rltb_reflect 0 1) as [K1|K1]; [|lra]. exists s6, d2, g. split; [reflexivity|]. rewrite tetra_mean in B. unfold f0 in A, B. cbn [fatt fpos] in A, B. split; [|exact B]. intros x. specialize (A x). rewrite mvec_id in A. exact A. }
  destruct EX as (fuel & src' & dest' & g & E & A & B). exists rand, (zVecXDDataAssignArray tetra), (zVecXDDataAssignArray l'), tetra, l', fuel, src', dest', g.
  split; [intros [|i] k; cbn; lra|]. split; [exact H1|]. split; [exact H2|]. split; [exact E|]. split.
  - intros p Hp. rewrite EC. rewrite EL. destruct Hp as [<-|[<-|[<-|[<-|[]]]]]; [exists (V3 22 2 2)|exists (V3 22 (-2) (-2))|exists (V3 18 2 (-2))|exists (V3 18 (-2) 2)]; (split; [cbn; tauto|]); apply dist_sq_lt; try lra; unfold dot, vsub, vadd; cbn [vx vy vz]; lra.
  - intros p q Hp Hq. pose proof zTOL_pos as T0. pose proof zTOL_small as T1. set (e := zTOL / (2 * 1 * (2 * 1))) in *. assert (EE : e < / 1000000) by (unfold e; lra). assert (E0 : 0 <= e) by (unfold e; lra). clearbody e. clear E.
    assert (N10 : norm (V3 10 0 0) = 10) by (unfold norm, dot; cbn [vx vy vz]; replace (10 * 10 + 0 * 0 + 0 * 0) with (10 * 10) by ring; apply sqrt_square; lra). rewrite N10 in B. specialize (A p).
    assert (NP : norm p <= 12). { assert (X : dist p (V3 0 0 0) < 13 /\ dist p (V3 0 0 0) <= 12). { assert (Y : dist p (V3 0 0 0) < 12) by (apply dist_sq_lt; [lra|]; destruct Hp as [<-|[<-|[<-|[<-|[]]]]]; unfold dot, vsub; cbn [vx vy vz]; lra). lra. } destruct X as [_ X]. unfold dist in X. replace (vsub p (V3 0 0 0)) with p in X by (apply vec3_ext; cbn; ring). exact X. }
    assert (D7 : 7 <= dist p q). { apply dist_sq_ge; [lra|]. rewrite EL in Hq. destruct Hp as [<-|[<-|[<-|[<-|[]]]]]; destruct Hq as [<-|[<-|[<-|[<-|[]]]]]; unfold dot, vsub; cbn [vx vy vz]; lra. }
    unfold dist, act in *. set (a := vsub (mvec (fatt g) p) p) in *. set (b := vsub (fpos g) (V3 0 0 0)) in *.
    assert (X : vsub p q = vadd (vsub (vadd (fpos g) (mvec (fatt g) p)) q) (vscale (-1) (vadd a b))) by (unfold a, b; apply vec3_ext; spec_unfold; cbn [vx vy vz]; ring).
    pose proof (norm_add (vsub (vadd (fpos g) (mvec (fatt g) p)) q) (vscale (-1) (vadd a b))) as Y1. rewrite <- X, norm_scale in Y1. replace (Rabs (-1)) with 1 in Y1 by (unfold Rabs; destruct (Rcase_abs (-1)); lra). pose proof (norm_add a b) as Y2. pose proof (norm_nonneg p). nra.
Qed.

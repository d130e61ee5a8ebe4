(** Prisms and pyramids: closed, facing outwards, with the right volume. *)
From Coq Require Import Permutation.
From Verif Require Import Base SpecClip SpecMesh ModelPrism FactsVec FactsAlg FactsElem FactsClip FactsClip2 FactsClip3 FactsClip4 FactsPH FactsPH2 FactsMesh5 FactsPrism FactsPrism2 FactsPrism3 FactsPrism4.
From Coq Require Import List Lia Lra.
Import ListNotations.
Open Scope R_scope.

Lemma verts_low (l q : list vec3) : map (vertAt (l ++ q)) (seq 0 (length l)) = l.
Proof.
  apply (nth_ext _ _ v3zero v3zero); [rewrite map_length, seq_length; reflexivity|]. intros i I. rewrite map_length, seq_length in I. rewrite (nth_indep _ _ (vertAt (l ++ q) 0)) by (rewrite map_length, seq_length; exact I). rewrite map_nth, seq_nth by exact I. unfold vertAt. cbn [plus]. apply app_nth1, I.
Qed.
Lemma verts_high (l q : list vec3) : length q = length l -> map (vertAt (l ++ q)) (seq (length l) (length l)) = q.
Proof.
  intros E. apply (nth_ext _ _ v3zero v3zero); [rewrite map_length, seq_length; auto|]. intros i I. rewrite map_length, seq_length in I. rewrite (nth_indep _ _ (vertAt (l ++ q) 0)) by (rewrite map_length, seq_length; exact I). rewrite map_nth, seq_nth by exact I. unfold vertAt. rewrite app_nth2 by lia. f_equal. lia.
Qed.
Lemma add_sh s l : map (fun b => zVec3DAdd b s) l = map (sh s) l.
Proof. apply map_ext. intros b. unfold sh. zvg. reflexivity. Qed.
Lemma area_sh m s l : loop_area m (map (sh s) l) = loop_area m l.
Proof.
  destruct l as [|v r]; [reflexivity|]. set (l := v :: r). assert (N : length l <> 0%nat) by discriminate. pose proof (verts_low l []) as E. rewrite app_nil_r in E. rewrite <- E. rewrite map_map. set (g := vertAt l) in *. set (n := length l) in *. unfold loop_area.
  rewrite (loop_ring (fun a b => dot m (cross a b)) (fun x => sh s (g x)) 0 n N), (loop_ring (fun a b => dot m (cross a b)) g 0 n N). cbn [plus].
  set (h := fun j => dot m (cross s (g j))). pose proof (ring_tele h n N) as T.
  rewrite (rsum_ext (fun i => dot m (cross (sh s (g i)) (sh s (g (nxt n i))))) (fun i => dot m (cross (g i) (g (nxt n i))) + (h (nxt n i) - h i))); [rewrite rsum_add, T; ring|]. intros i _. unfold h, sh. generalize (g i) (g (nxt n i)). intros; spec_unfold; ring.
Qed.
Lemma vert_in (l q : list vec3) i : (i < length l)%nat -> List.In (vertAt (l ++ q) i) l.
Proof. intros I. unfold vertAt. rewrite app_nth1 by exact I. apply nth_In, I. Qed.
Lemma first_flip vs n ref t r : (3 <= n)%nat -> firstOK (seq 0 n) (t :: r) -> sideFlip n (alignN vs ref t) = Some (negb (Rltb (zVec3DInnerProd ref (fnrm (faceNum vs t))) 0)).
Proof. intros N F. destruct t as ((u, v), x). destruct F as (o & l1 & T). destruct (flip_false vs n u v x o l1 N T) as (A & B). unfold alignN. destruct (Rltb _ 0); [exact A|exact B]. Qed.
Lemma below_app n a b : indices_below n a -> indices_below n b -> indices_below n (a ++ b).
Proof. unfold indices_below. intros. apply Forall_app. auto. Qed.
Lemma tri_below vs n m L ts l' N : cutsN vs m L ts l' -> (forall i, List.In i L -> (i < N)%nat) -> n = N -> indices_below n ts.
Proof. intros C H ->. apply Forall_forall. intros ((a, b), c) I. destruct (cutsN_in _ _ _ _ _ C a b c I) as (A & B & D). auto. Qed.
Lemma mantle_below n : indices_below (n + n) (mantle n).
Proof. apply Forall_forall. intros ((a, b), c) I. unfold mantle in I. apply in_flat_map in I. destruct I as (i & I & J). apply in_seq in I. destruct (nxt_cases n i) as [(E & H)|(E & H)]; [lia| |]; cbn [List.In] in J; rewrite E in J; destruct J as [J|[J|[]]]; injection J as Ja Jb Jc; lia. Qed.
Lemma fan_below n : indices_below (n + 1) (cone_fan n).
Proof. apply Forall_forall. intros ((a, b), c) I. unfold cone_fan in I. apply in_map_iff in I. destruct I as (i & J & I). apply in_seq in I. injection J as Ja Jb Jc. destruct (nxt_cases n i) as [(E & H)|(E & H)]; lia. Qed.
Lemma mantle_proper n : (3 <= n)%nat -> proper_faces (mantle n).
Proof. intros N. apply Forall_forall. intros ((a, b), c) I. unfold mantle in I. apply in_flat_map in I. destruct I as (i & I & J). apply in_seq in I. destruct (nxt_cases n i) as [(E & H)|(E & H)]; [lia| |]; cbn [List.In] in J; rewrite E in J; destruct J as [J|[J|[]]]; injection J as Ja Jb Jc; lia. Qed.
Lemma fan_proper n : (3 <= n)%nat -> proper_faces (cone_fan n).
Proof. intros N. apply Forall_forall. intros ((a, b), c) I. unfold cone_fan in I. apply in_map_iff in I. destruct I as (i & J & I). apply in_seq in I. injection J as Ja Jb Jc. destruct (nxt_cases n i) as [(E & H)|(E & H)]; lia. Qed.
Lemma turned_proper fs : proper_faces fs -> proper_faces (map turned fs).
Proof. intros H. apply Forall_forall. intros f F. apply in_map_iff in F. destruct F as ([[a b] c] & <- & F). apply (proj1 (Forall_forall _ _) H) in F. cbn in *. destruct F as (A & B & C). repeat split; congruence. Qed.
Lemma proper_app a b : proper_faces a -> proper_faces b -> proper_faces (a ++ b).
Proof. unfold proper_faces. intros. apply Forall_app. auto. Qed.
Lemma faces_idx vs fs : ph_faces (PH vs fs) = map idx fs. Proof. reflexivity. Qed.
Lemma fresh_of vs fs : Forall (freshF vs) fs -> fresh (PH vs fs). Proof. intros H. exact H. Qed.
Lemma map_fresh {A} vs (g : A -> face) l : (forall x, freshF vs (g x)) -> Forall (freshF vs) (map g l).
Proof. intros H. apply Forall_forall. intros f I. apply in_map_iff in I. destruct I as (x & <- & _). apply H. Qed.

Section Prism.
Variables (o m : vec3) (l : list vec3) (s : vec3).
Hypothesis U : norm m = 1.
Hypothesis P : planar o m l.
Hypothesis N3 : (3 <= length l)%nat.
Notation n := (length l).
Notation vs := (prismVerts l s).
Notation pos := (vertAt vs).
Notation A := (loop_area m l).
Lemma Nz : n <> 0%nat. Proof. lia. Qed.
Lemma pv_low : map pos (seq 0 n) = l. Proof. apply verts_low. Qed.
Lemma pv_high : map pos (seq n n) = map (sh s) l. Proof. unfold prismVerts. rewrite verts_high, add_sh by (rewrite map_length; reflexivity). reflexivity. Qed.
Lemma pv_at i : (i < n)%nat -> pos (i + n)%nat = vadd (pos i) s /\ dot m (vsub (pos i) o) = 0.
Proof.
  intros I. split; [|apply P, vert_in, I]. unfold prismVerts, vertAt. rewrite add_sh. rewrite app_nth2 by lia. replace (i + n - n)%nat with i by lia. rewrite (nth_indep _ _ (sh s v3zero)) by (rewrite map_length; exact I). rewrite map_nth. rewrite app_nth1 by exact I. reflexivity.
Qed.
Lemma mantle_vol : mesh_vol v3zero vs (mantle n) = dot s m * A / 3.
Proof.
  unfold mesh_vol, mantle. rewrite rsum_flat. rewrite (rsum_ext _ (fun i => 1 / 3 * dot s (cross (pos i) (pos (nxt n i))))).
  - rewrite rsum_scale. rewrite (ring_area o m s pos n U Nz); [rewrite pv_low; field|]. intros i I. apply pv_at, I.
  - intros i I. apply in_seq in I. rewrite !rsum_cons, rsum_nil. cbn [corners]. change (vpos vs) with pos. rewrite !vol_fold. assert (I1 : (nxt n i < n)%nat) by (destruct (nxt_cases n i); lia). destruct (pv_at i ltac:(lia)) as (-> & _). destruct (pv_at (nxt n i) I1) as (-> & _). generalize (pos i) (pos (nxt n i)). intros; spec_unfold; field.
Qed.
Hypothesis D : dot m s <> 0.
Lemma planar_high : planar (vadd o s) m (map (sh s) l).
Proof. destruct P as (Z & H). split; [exact Z|]. intros p I. apply in_map_iff in I. destruct I as (q & <- & I). replace (vsub (sh s q) (vadd o s)) with (vsub q o); [apply H, I|]. unfold sh. destruct q, o, s. vring. Qed.
Lemma prism_core : exists ph, zPH3DCreatePrism l s = Some (Some ph) /\ pverts ph = vs /\ length (pfaces ph) = (4 * (n - 1))%nat /\ fresh ph /\
  (stuck l \/ exists kb kt tb tt rb rt, cutsN vs (vscale kb m) (seq 0 n) tb rb /\ (length rb <= 2)%nat /\ tb <> [] /\ cutsN vs (vscale kt m) (seq n n) tt rt /\ (length rt <= 2)%nat /\ tt <> [] /\ A <> 0 /\
    ph_faces ph = (if Rltb 0 (A * dot m s) then map turned tb ++ tt ++ mantle n else map turned (map turned tb ++ tt ++ mantle n))).
Proof.
  destruct (prism_form l s N3) as (tb & tt & flip & Eb & Et & Lb & Lt & Fb & Ef & E). cbv zeta in *. eexists. split; [exact E|]. split; [reflexivity|]. split; [cbn [pfaces]; rewrite !app_length, !map_length, mantle_len, Lb, Lt; lia|].
  split; [apply fresh_of; apply Forall_app; split; [apply map_fresh, align_fresh|]; apply Forall_app; split; [apply map_fresh, align_fresh|apply map_fresh, side_fresh]|].
  destruct (triN vs (seq 0 n)) as (tb' & Eb' & _ & _ & Rb); [generalize Nz; destruct n; [congruence|discriminate]|]. assert (tb' = tb) by congruence. subst tb'. clear Eb'. rewrite pv_low in Rb.
  destruct (triN vs (seq n n)) as (tt' & Et' & _ & _ & Rt); [generalize Nz; destruct n; [congruence|discriminate]|]. assert (tt' = tt) by congruence. subst tt'. clear Et'. rewrite pv_high in Rt.
  destruct Rb as [S|(ib & rb & Lmb & Cb & Rb)]; [left; exact S|]. destruct Rt as [S|(it & rt & Lmt & Ct & Rt)]; [left; exact (stuck_sh s l S)|]. right.
  destruct (corner_plane o m l ib P) as (kb & Kb); [apply Lmb|]. rewrite Kb in Cb. destruct (corner_plane _ m _ it planar_high) as (kt & Kt); [apply Lmt|]. rewrite Kt in Ct.
  destruct tb as [|t0 tb0] eqn:Etb; [contradiction|]. rewrite <- Etb in *. assert (Nb : tb <> []) by (rewrite Etb; discriminate). assert (Nt : tt <> []) by (intros ->; cbn in Lt; lia).
  assert (Pb : planar o m (map pos (seq 0 n))) by (rewrite pv_low; exact P). assert (Pt : planar (vadd o s) m (map pos (seq n n))) by (rewrite pv_high; exact planar_high).
  pose proof (fun ref f => cut_flip vs o m kb (seq 0 n) tb rb U Pb Cb Rb Nb ref f) as Hb. pose proof (fun ref f => cut_flip vs (vadd o s) m kt (seq n n) tt rt U Pt Ct Rt Nt ref f) as Ht. rewrite pv_low in Hb. rewrite pv_high, area_sh in Ht.
  assert (A0 : A <> 0). { destruct t0 as ((a, b), c). pose proof (cut_sign vs o m kb (seq 0 n) tb rb Pb Cb Rb Nb a b c ltac:(rewrite Etb; left; reflexivity)) as Q. rewrite pv_low in Q. intros Z. rewrite Z in Q. lra. }
  assert (Rv : dot (zVec3DRev s) m = - dot m s) by (zvg; spec_unfold; ring). assert (Rvv : dot (zVec3DRev (zVec3DRev s)) m = dot m s) by (zvg; spec_unfold; ring).
  rewrite Etb in Fb. rewrite (first_flip vs n _ t0 tb0 N3 Fb) in Ef. rewrite (Hb _ t0) in Ef by (first [rewrite Rv; lra | rewrite Etb; left; reflexivity]). injection Ef as Ef. rewrite Rv in Ef.
  assert (Ib : map idx (map (alignN vs (zVec3DRev s)) tb) = if Rltb (A * - dot m s) 0 then map turned tb else tb) by (apply align_idx; intros f I; rewrite (Hb _ f) by (first [exact I | rewrite Rv; lra]); rewrite Rv; reflexivity).
  assert (It : map idx (map (alignN vs (zVec3DRev (zVec3DRev s))) tt) = if Rltb (A * dot m s) 0 then map turned tt else tt) by (apply align_idx; intros f I; rewrite (Ht _ f) by (first [exact I | rewrite Rvv; exact D]); rewrite Rvv; reflexivity).
  exists kb, kt, tb, tt, rb, rt. repeat (split; [assumption|]).
  rewrite faces_idx, !map_app, Ib, It, idx_side, <- Ef, turned_turned. assert (A * dot m s <> 0) by (apply Rmult_integral_contrapositive; auto).
    destruct (Rltb_reflect 0 (A * dot m s)); destruct (Rltb_reflect (A * - dot m s) 0); destruct (Rltb_reflect (A * dot m s) 0); try (exfalso; lra); cbn [negb]; reflexivity.
Qed.
Lemma prism_main : exists ph, zPH3DCreatePrism l s = Some (Some ph) /\ pverts ph = l ++ map (fun b => vadd b s) l /\ length (pfaces ph) = (4 * (n - 1))%nat /\ fresh ph /\
  (stuck l \/ (indices_below (length (pverts ph)) (ph_faces ph) /\ proper_faces (ph_faces ph) /\ oriented (ph_faces ph) /\ zPH3DVolume ph = Some (Rabs (dot m s) * Rabs A / 2) /\ A <> 0)).
Proof.
  destruct prism_core as (ph & E & Ev & Ln & Fr & C). exists ph. split; [exact E|]. split; [rewrite Ev; unfold prismVerts; rewrite add_sh; reflexivity|]. split; [exact Ln|]. split; [exact Fr|]. destruct C as [S|(kb & kt & tb & tt & rb & rt & Cb & Rb & Nb & Ct & Rt & Nt & A0 & FF)]; [left; exact S|right].
  assert (Pb : planar o m (map pos (seq 0 n))) by (rewrite pv_low; exact P). assert (Pt : planar (vadd o s) m (map pos (seq n n))) by (rewrite pv_high; exact planar_high).
  pose proof (cut_vol vs o m kb (seq 0 n) tb rb U Pb Cb Rb Nb) as Vb. rewrite pv_low in Vb. pose proof (cut_vol vs (vadd o s) m kt (seq n n) tt rt U Pt Ct Rt Nt) as Vt. rewrite pv_high, area_sh in Vt.
  set (F := map turned tb ++ tt ++ mantle n). assert (OF : oriented F) by (apply (prism_oriented vs (vscale kb m) (vscale kt m) n tb tt rb rt N3 Cb Rb Ct Rt)).
  assert (BF : indices_below (n + n) F). { apply below_app; [apply turned_below; eapply tri_below; [exact Cb| |reflexivity]; intros i I; apply in_seq in I; lia|]. apply below_app; [eapply tri_below; [exact Ct| |reflexivity]; intros i I; apply in_seq in I; lia|apply mantle_below]. }
  assert (PF : proper_faces F). { apply proper_app; [apply turned_proper; eapply cutsN_proper; [exact Cb|apply seq_NoDup]|]. apply proper_app; [eapply cutsN_proper; [exact Ct|apply seq_NoDup]|apply mantle_proper, N3]. }
  assert (VF : mesh_vol v3zero vs F = A * dot m s / 2). { unfold F. rewrite !mesh_app, mesh_turn, Vb, Vt, mantle_vol. replace (dot s m) with (dot m s) by (spec_unfold; ring). replace (dot (vadd o s) m) with (dot o m + dot m s) by (spec_unfold; ring). field. }
  assert (Lv : length vs = (n + n)%nat) by (unfold prismVerts; rewrite app_length, map_length; reflexivity).
  rewrite Ev, Lv. assert (Z : A * dot m s <> 0) by (apply Rmult_integral_contrapositive; auto). fold F in FF.
  assert (VV : indices_below (n + n) (if Rltb 0 (A * dot m s) then F else map turned F)) by (destruct (Rltb 0 _); [exact BF|apply turned_below, BF]).
  rewrite <- FF in VV. assert (Va : valid_ph ph) by (unfold valid_ph; rewrite Ev, Lv; exact VV). split; [exact VV|]. rewrite (ph_volume _ Va). rewrite Ev, FF.
  assert (Rd : Rabs (dot m s) * Rabs A = Rabs (A * dot m s)) by (rewrite Rabs_mult; ring). rewrite Rd. split; [destruct (Rltb 0 _); [exact PF|apply turned_proper, PF]|]. split; [destruct (Rltb 0 _); [exact OF|apply turned_oriented, OF]|]. split; [|exact A0]. f_equal. unfold vol0.
  destruct (Rltb_reflect 0 (A * dot m s)); [rewrite VF, Rabs_right by lra; reflexivity|rewrite mesh_turn, VF, Rabs_left by lra; field].
Qed.
End Prism.
Section Pyramid.
Variables (o m : vec3) (l : list vec3) (a : vec3).
Hypothesis U : norm m = 1.
Hypothesis P : planar o m l.
Hypothesis N3 : (3 <= length l)%nat.
Notation n := (length l).
Notation vs := (l ++ [a]).
Notation pos := (vertAt vs).
Notation A := (loop_area m l).
Notation h := (dot m (vsub a o)).
Lemma fan_vol : mesh_vol v3zero vs (cone_fan n) = dot a m * A / 6.
Proof.
  assert (Nz : n <> 0%nat) by lia. assert (Pa : pos n = a) by (unfold vertAt; rewrite app_nth2, Nat.sub_diag by lia; reflexivity).
  unfold mesh_vol, cone_fan. rewrite rsum_map. rewrite (rsum_ext _ (fun i => 1 / 6 * dot a (cross (pos i) (pos (nxt n i))))).
  - rewrite rsum_scale. rewrite (ring_area o m a pos n U Nz); [rewrite verts_low; field|]. intros i I. apply P, vert_in, I.
  - intros i I. cbn [corners]. change (vpos vs) with pos. rewrite vol_fold, Pa. generalize (pos i) (pos (nxt n i)). intros; spec_unfold; field.
Qed.
Hypothesis D : h <> 0.
Lemma pyramid_core : exists ph, zPH3DCreatePyramid l a = Some (Some ph) /\ pverts ph = l ++ [a] /\ length (pfaces ph) = (2 * (n - 1))%nat /\ fresh ph /\
  (stuck l \/ exists kb tb rb, cutsN vs (vscale kb m) (seq 0 n) tb rb /\ (length rb <= 2)%nat /\ tb <> [] /\ A <> 0 /\
    ph_faces ph = (if Rltb 0 (A * h) then map turned tb ++ cone_fan n else map turned (map turned tb ++ cone_fan n))).
Proof.
  destruct (pyr_form l a N3) as (tb & flip & Eb & Lb & Fb & Ef & E). cbv zeta in *. set (ref := zVec3DSub (pos 0) a) in *. eexists. split; [exact E|]. split; [reflexivity|]. split; [cbn [pfaces]; rewrite !app_length, !map_length, fan_len, Lb; lia|].
  split; [apply fresh_of; apply Forall_app; split; [apply map_fresh, align_fresh|apply map_fresh, side_fresh]|].
  destruct (triN vs (seq 0 n)) as (tb' & Eb' & _ & _ & Rb); [destruct n; [lia|discriminate]|]. assert (tb' = tb) by congruence. subst tb'. clear Eb'. rewrite verts_low in Rb.
  destruct Rb as [S|(ib & rb & Lmb & Cb & Rb)]; [left; exact S|]. right. destruct (corner_plane o m l ib P) as (kb & Kb); [apply Lmb|]. rewrite Kb in Cb.
  destruct tb as [|t0 tb0] eqn:Etb; [contradiction|]. rewrite <- Etb in *. assert (Nb : tb <> []) by (rewrite Etb; discriminate).
  assert (Pb : planar o m (map pos (seq 0 n))) by (rewrite verts_low; exact P).
  pose proof (fun ref f => cut_flip vs o m kb (seq 0 n) tb rb U Pb Cb Rb Nb ref f) as Hb. rewrite verts_low in Hb.
  assert (A0 : A <> 0). { destruct t0 as ((x, b), c). pose proof (cut_sign vs o m kb (seq 0 n) tb rb Pb Cb Rb Nb x b c ltac:(rewrite Etb; left; reflexivity)) as Q. rewrite verts_low in Q. intros Z. rewrite Z in Q. lra. }
  assert (Rv : dot ref m = - h). { assert (H0 : dot m (vsub (pos 0) o) = 0) by (apply P, vert_in; lia). unfold ref. zvg. revert H0. generalize (pos 0). intros q H0. replace (dot (vsub q a) m) with (dot m (vsub q o) - h) by (spec_unfold; ring). rewrite H0. ring. }
  rewrite Etb in Fb. rewrite (first_flip vs n _ t0 tb0 N3 Fb) in Ef. rewrite (Hb _ t0) in Ef by (first [rewrite Rv; lra | rewrite Etb; left; reflexivity]). injection Ef as Ef. rewrite Rv in Ef.
  assert (Ib : map idx (map (alignN vs ref) tb) = if Rltb (A * - h) 0 then map turned tb else tb) by (apply align_idx; intros f I; rewrite (Hb _ f) by (first [exact I | rewrite Rv; lra]); rewrite Rv; reflexivity).
  assert (Z : A * h <> 0) by (apply Rmult_integral_contrapositive; auto). exists kb, tb, rb. repeat (split; [assumption|]).
  rewrite faces_idx, !map_app, Ib, idx_side, <- Ef, turned_turned.
    destruct (Rltb_reflect 0 (A * h)); destruct (Rltb_reflect (A * - h) 0); try (exfalso; lra); cbn [negb]; reflexivity.
Qed.
Lemma pyramid_main : exists ph, zPH3DCreatePyramid l a = Some (Some ph) /\ pverts ph = l ++ [a] /\ length (pfaces ph) = (2 * (n - 1))%nat /\ fresh ph /\
  (stuck l \/ (indices_below (length (pverts ph)) (ph_faces ph) /\ proper_faces (ph_faces ph) /\ oriented (ph_faces ph) /\ zPH3DVolume ph = Some (Rabs h * Rabs A / 6) /\ A <> 0)).
Proof.
  destruct pyramid_core as (ph & E & Ev & Ln & Fr & C). exists ph. split; [exact E|]. split; [exact Ev|]. split; [exact Ln|]. split; [exact Fr|]. destruct C as [S|(kb & tb & rb & Cb & Rb & Nb & A0 & FF)]; [left; exact S|right].
  assert (Pb : planar o m (map pos (seq 0 n))) by (rewrite verts_low; exact P).
  pose proof (cut_vol vs o m kb (seq 0 n) tb rb U Pb Cb Rb Nb) as Vb. rewrite verts_low in Vb.
  set (F := map turned tb ++ cone_fan n). assert (OF : oriented F) by (apply (pyramid_oriented vs (vscale kb m) n tb rb N3 Cb Rb)).
  assert (BF : indices_below (n + 1) F). { apply below_app; [apply turned_below; eapply tri_below; [exact Cb| |reflexivity]; intros i I; apply in_seq in I; lia|apply fan_below]. }
  assert (PF : proper_faces F). { apply proper_app; [apply turned_proper; eapply cutsN_proper; [exact Cb|apply seq_NoDup]|apply fan_proper, N3]. }
  assert (VF : mesh_vol v3zero vs F = A * h / 6). { unfold F. rewrite mesh_app, mesh_turn, Vb, fan_vol. replace h with (dot a m - dot o m) by (spec_unfold; ring). field. }
  assert (Lv : length vs = (n + 1)%nat) by (rewrite app_length; reflexivity). assert (Z : A * h <> 0) by (apply Rmult_integral_contrapositive; auto).
  rewrite Ev, Lv. fold F in FF. assert (VV : indices_below (n + 1) (if Rltb 0 (A * h) then F else map turned F)) by (destruct (Rltb 0 _); [exact BF|apply turned_below, BF]).
  rewrite <- FF in VV. assert (Va : valid_ph ph) by (unfold valid_ph; rewrite Ev, Lv; exact VV). split; [exact VV|]. rewrite (ph_volume _ Va). rewrite Ev, FF.
  assert (Rd : Rabs h * Rabs A = Rabs (A * h)) by (rewrite Rabs_mult; ring). rewrite Rd. split; [destruct (Rltb 0 _); [exact PF|apply turned_proper, PF]|]. split; [destruct (Rltb 0 _); [exact OF|apply turned_oriented, OF]|]. split; [|exact A0]. f_equal. unfold vol0.
  destruct (Rltb_reflect 0 (A * h)); [rewrite VF, Rabs_right by lra; reflexivity|rewrite mesh_turn, VF, Rabs_left by lra; field].
Qed.
End Pyramid.

(** Facts on STL files: binary files. *)
From Coq Require Import Lra Lia Permutation.
From Verif Require Import Base Spec SpecFile ModelVec ModelElem ModelPH ModelTree ModelStl FactsStl FactsStl2.
Open Scope R_scope.

Lemma fread_app n (a b : list Z) : length a = n -> fread n (a ++ b) = (Some a, b).
Proof.
  intros L. unfold fread. rewrite app_length. destruct (Nat.leb_spec n (length a + length b)); [|lia]. f_equal.
  - f_equal. rewrite <- L, firstn_app, Nat.sub_diag, firstn_all. cbn. apply app_nil_r.
  - rewrite <- L, skipn_app, Nat.sub_diag, skipn_all. reflexivity.
Qed.
Lemma of32_le32 n : (0 <= n < 4294967296)%Z -> of32 (le32 n) = n.
Proof.
  intros H. unfold of32, le32.
  assert (E1 : (n = 256 * (n / 256) + n mod 256)%Z) by (apply Z.div_mod; lia).
  assert (E2 : (n / 256 = 256 * (n / 65536) + (n / 256) mod 256)%Z) by (change 65536%Z with (256 * 256)%Z; rewrite <- Z.div_div by lia; apply Z.div_mod; lia).
  assert (E3 : (n / 65536 = 256 * (n / 16777216) + (n / 65536) mod 256)%Z) by (change 16777216%Z with (65536 * 256)%Z; rewrite <- (Z.div_div n 65536 256) by lia; apply Z.div_mod; lia).
  assert (E4 : ((n / 16777216) mod 256 = n / 16777216)%Z) by (apply Z.mod_small; split; [apply Z.div_pos; lia|apply Z.div_lt_upper_bound; lia]).
  lia.
Qed.
Section Codec.
Variables (c : fcodec) (F4 : four_bytes c).
Lemma vec_len v : length (zPH3DFWriteSTL_BinVec c v) = 12%nat.
Proof. unfold zPH3DFWriteSTL_BinVec. rewrite !app_length, !F4. reflexivity. Qed.
Lemma binface_len t : length (binFace c t) = 50%nat.
Proof. unfold binFace. rewrite !app_length, !vec_len. reflexivity. Qed.
Lemma binfaces_len us : length (flat_map (binFace c) us) = (50 * length us)%nat.
Proof. induction us as [|u us IH]; [reflexivity|]. cbn [flat_map]. rewrite app_length, IH, binface_len. cbn [length]. lia. Qed.
Lemma read_vec v s w : zPH3DFReadSTL_BinVec c (zPH3DFWriteSTL_BinVec c v ++ s) w = (Some (each (recoded c) v), s).
Proof.
  unfold zPH3DFReadSTL_BinVec, zPH3DFWriteSTL_BinVec. rewrite <- !app_assoc. rewrite fread_app by apply F4. rewrite fread_app by apply F4. rewrite fread_app by apply F4. reflexivity.
Qed.
Lemma read_end w : zPH3DFReadSTL_BinVec c [] w = (w, []). Proof. reflexivity. Qed.
Definition slots_of (t : tri) : slots := let '(a, b, d) := t in (Some a, Some b, Some d).
Definition coded (us : list tri3) : list tri := map (fun t => each3 (each (recoded c)) (tri_of t)) us.
Lemma coded_tri us : coded us = map (each3 (each (recoded c))) (map tri_of us).
Proof. unfold coded. now rewrite map_map. Qed.
Lemma bin_stale junk t : forall m fl vt, stlBinFacets m c junk [] (slots_of t) fl vt = regs junk fl vt (repeat t m).
Proof.
  destruct t as [[a b] d]. induction m as [|m IH]; intros fl vt; [reflexivity|]. cbn [stlBinFacets slots_of repeat regs]. rewrite !read_end. cbn [fread length Nat.leb].
  destruct (zSTLFacetListReg junk fl vt (a, b, d)) as [[fl' vt']|]; [|reflexivity]. apply IH.
Qed.
Lemma bin_facets junk : forall us v fl vt m, (0 < length us)%nat -> stlBinFacets (length us + m) c junk (flat_map (binFace c) us) v fl vt =
  regs junk fl vt (coded us ++ repeat (last (coded us) (v3zero, v3zero, v3zero)) m).
Proof.
  induction us as [|u us IH]; intros v fl vt m L; [cbn in L; lia|]. cbn [length Nat.add flat_map stlBinFacets]. destruct v as [[w0 w1] w2].
  unfold binFace at 1. rewrite <- !app_assoc. rewrite !read_vec. rewrite (fread_app 2 [0%Z; 0%Z]) by reflexivity.
  change (coded (u :: us)) with (each3 (each (recoded c)) (tri_of u) :: coded us). cbn [app regs].
  assert (ET : each3 (each (recoded c)) (tri_of u) = (each (recoded c) (tv0 u), each (recoded c) (tv1 u), each (recoded c) (tv2 u))) by reflexivity. rewrite ET.
  destruct (zSTLFacetListReg junk fl vt (each (recoded c) (tv0 u), each (recoded c) (tv1 u), each (recoded c) (tv2 u))) as [[fl' vt']|]; [|reflexivity]. destruct us as [|u' us].
  - cbn [length Nat.add flat_map coded map app last]. apply (bin_stale junk (each (recoded c) (tv0 u), each (recoded c) (tv1 u), each (recoded c) (tv2 u))).
  - rewrite IH by (cbn; lia). reflexivity.
Qed.
End Codec.

Lemma map_rep {A B} (g : A -> B) x n : map g (repeat x n) = repeat (g x) n.
Proof. induction n as [|n IH]; [reflexivity|]. cbn. now rewrite IH. Qed.
Lemma stl_bin c junk ph ts name : four_bytes c -> soup (pverts ph) (ph_faces ph) ts -> ts <> [] -> (Z.of_nat (length ts) < 2147483648)%Z -> length name = 80%nat ->
  (forall v j, first_corner (map (each3 (each (recoded c))) ts) v -> junk = Some j -> ~ about zTOL v j) ->
  exists bytes ph', zPH3DFWriteSTL_Bin c ph name = Some bytes /\ zSTLIsBin bytes = true /\
    zPH3DFReadSTL_Bin c junk bytes = Some (Some ph', name) /\
    welded zTOL (map (each3 (each (recoded c))) ts) (pverts ph') (map face_key (pfaces ph')).
Proof.
  intros F4 S N B L J. destruct (tris_ph ph ts S) as (us & E & M). unfold zPH3DFWriteSTL_Bin. rewrite L, E. cbn [Nat.ltb Nat.leb]. eexists.
  destruct (regs_all junk (map (each3 (each (recoded c))) ts)) as (fl & vt & ph' & R1 & R2 & W); [destruct ts; [congruence|discriminate]|assumption|].
  assert (LU : length us = length ts) by (rewrite <- M; symmetry; apply map_length). assert (L0 : (0 < length us)%nat) by (rewrite LU; destruct ts; [congruence|cbn; lia]).
  rewrite firstn_all2 by lia. exists ph'. split; [reflexivity|]. split; [|split; [|exact W]].
  - unfold zSTLIsBin. rewrite fread_app by assumption. rewrite fread_app by reflexivity. rewrite of32_le32 by lia. apply Z.eqb_eq. rewrite !app_length, L, (binfaces_len c F4). cbn [le32 length]. lia.
  - unfold zPH3DFReadSTL_Bin. rewrite firstn_app, L, Nat.sub_diag, (firstn_all2 name) by lia. cbn [firstn]. rewrite app_nil_r. rewrite fread_app by assumption. rewrite fread_app by reflexivity. rewrite of32_le32 by lia.
    destruct (Z.leb_spec (Z.of_nat (length us)) 0); [lia|]. unfold int_of_u32. destruct (Z.ltb_spec (Z.of_nat (length us)) 2147483648); [|lia]. rewrite Nat2Z.id.
    assert (Q := bin_facets c F4 junk us (None, None, None) [] zVec3DTreeInit 0 L0). rewrite Nat.add_0_r in Q. cbn [repeat] in Q. rewrite app_nil_r in Q. rewrite Q, coded_tri, M, R1, R2. reflexivity.
Qed.
(** a file that ends too early: the last complete facet is repeated *)
Lemma stl_truncated c junk ph ts name k : four_bytes c -> soup (pverts ph) (ph_faces ph) ts -> (0 < k <= length ts)%nat -> (Z.of_nat (length ts) < 2147483648)%Z -> length name = 80%nat ->
  (forall v j, first_corner (map (each3 (each (recoded c))) ts) v -> junk = Some j -> ~ about zTOL v j) ->
  exists bytes ph' t, zPH3DFWriteSTL_Bin c ph name = Some bytes /\ nth_error ts (k - 1) = Some t /\
    zPH3DFReadSTL_Bin c junk (firstn (84 + 50 * k) bytes) = Some (Some ph', name) /\
    welded zTOL (map (each3 (each (recoded c))) (firstn k ts ++ repeat t (length ts - k))) (pverts ph') (map face_key (pfaces ph')).
Proof.
  intros F4 S KL B L J. destruct (tris_ph ph ts S) as (us & E & M). unfold zPH3DFWriteSTL_Bin. rewrite L, E. cbn [Nat.ltb Nat.leb]. eexists.
  assert (LU : length us = length ts) by (rewrite <- M; symmetry; apply map_length).
  destruct (nth_error ts (k - 1)) as [t|] eqn:Ht; [|apply nth_error_None in Ht; lia].
  destruct (regs_all junk (map (each3 (each (recoded c))) (firstn k ts ++ repeat t (length ts - k)))) as (fl & vt & ph' & R1 & R2 & W).
  { destruct ts; [cbn in KL; lia|]. destruct k; [lia|]. discriminate. }
  { intros v j Fc. apply J. destruct Fc as (a & b & r & Fc). destruct ts as [|t0 ts]; [cbn in KL; lia|]. destruct k; [lia|]. cbn [firstn app map] in Fc. injection Fc as Fc _. exists a, b, (map (each3 (each (recoded c))) ts). cbn [map]. now rewrite Fc. }
  rewrite firstn_all2 by lia. exists ph', t. split; [reflexivity|]. split; [reflexivity|]. split; [|exact W].
  assert (LK : length (firstn k us) = k) by (apply firstn_length_le; lia).
  assert (FB : firstn (84 + 50 * k) (name ++ le32 (Z.of_nat (length us)) ++ flat_map (binFace c) us) = name ++ le32 (Z.of_nat (length us)) ++ flat_map (binFace c) (firstn k us)).
  { assert (D : flat_map (binFace c) us = flat_map (binFace c) (firstn k us) ++ flat_map (binFace c) (skipn k us)) by (rewrite <- flat_map_app, firstn_skipn; reflexivity). rewrite D, !app_assoc. rewrite firstn_app. rewrite firstn_all2 by (rewrite !app_length, L, (binfaces_len c F4), LK; cbn [le32 length]; lia).
    replace (84 + 50 * k - length ((name ++ le32 (Z.of_nat (length us))) ++ flat_map (binFace c) (firstn k us)))%nat with 0%nat by (rewrite !app_length, L, (binfaces_len c F4), LK; cbn [le32 length]; lia). cbn [firstn]. apply app_nil_r. }
  rewrite FB. unfold zPH3DFReadSTL_Bin. rewrite firstn_app, L, Nat.sub_diag, (firstn_all2 name) by lia. cbn [firstn]. rewrite app_nil_r. rewrite fread_app by assumption. rewrite fread_app by reflexivity. rewrite of32_le32 by lia.
  destruct (Z.leb_spec (Z.of_nat (length us)) 0); [lia|]. unfold int_of_u32. destruct (Z.ltb_spec (Z.of_nat (length us)) 2147483648); [|lia]. rewrite Nat2Z.id.
  assert (Q := bin_facets c F4 junk (firstn k us) (None, None, None) [] zVec3DTreeInit (length us - k) ltac:(lia)). rewrite LK in Q. replace (k + (length us - k))%nat with (length us) in Q by lia.
  assert (EL : last (coded c (firstn k us)) (v3zero, v3zero, v3zero) = each3 (each (recoded c)) t).
  { rewrite coded_tri. rewrite <- firstn_map, M. destruct k as [|k]; [lia|]. cbn [Nat.sub] in Ht. rewrite Nat.sub_0_r in Ht.
    assert (FS : firstn (Datatypes.S k) ts = firstn k ts ++ [t]).
    { clear -Ht. revert k Ht. induction ts as [|x ts IH]; intros k Ht; [destruct k; discriminate|]. destruct k; cbn in *; [congruence|]. f_equal. apply IH. exact Ht. }
    rewrite FS, map_app. apply last_last. }
  rewrite Q, EL, coded_tri, <- firstn_map, M, LU. rewrite map_app, map_rep in R1. rewrite R1, R2. reflexivity.
Qed.
Lemma stl_bin_empty c junk ph name : pfaces ph = [] -> length name = 80%nat -> exists bytes, zPH3DFWriteSTL_Bin c ph name = Some bytes /\ zSTLIsBin bytes = true /\ zPH3DFReadSTL_Bin c junk bytes = Some (None, name).
Proof.
  intros E L. unfold zPH3DFWriteSTL_Bin, zPH3DTris. rewrite L, E. cbn [Nat.ltb Nat.leb mapM flat_map]. eexists. split; [reflexivity|]. rewrite firstn_all2 by lia. rewrite app_nil_r. cbn [length]. split.
  - unfold zSTLIsBin. rewrite fread_app by assumption. rewrite <- (app_nil_r (le32 (Z.of_nat 0))) at 1. rewrite fread_app by reflexivity. apply Z.eqb_eq. rewrite app_length, L. reflexivity.
  - unfold zPH3DFReadSTL_Bin. rewrite firstn_app, L, Nat.sub_diag, (firstn_all2 name) by lia. cbn [firstn]. rewrite app_nil_r. rewrite fread_app by assumption. reflexivity.
Qed.
(** texts are not taken for binary files *)
Lemma text_not_bin s : Forall (fun b => (9 <= b < 256)%Z) s -> (Z.of_nat (length s) < 7579354134)%Z -> zSTLIsBin s = false.
Proof.
  intros H L. unfold zSTLIsBin. destruct (fread 80 s) as [[h|] r] eqn:E1; [|reflexivity]. destruct (fread 4 r) as [[b|] r'] eqn:E2; [|reflexivity].
  apply Z.eqb_neq. unfold fread in E1, E2. destruct (Nat.leb 80 (length s)); [|discriminate E1]. apply pair_equal_spec in E1. destruct E1 as [_ <-]. destruct (Nat.leb_spec 4 (length (skipn 80 s))) as [L4|]; [|discriminate E2]. apply pair_equal_spec in E2. destruct E2 as [E2 _]. apply (f_equal (fun o => match o with Some x => x | None => [] end)) in E2. cbn beta iota in E2. subst b.
  assert (G : Forall (fun b => (9 <= b < 256)%Z) (skipn 80 s)). { apply Forall_forall. intros x Hx. rewrite Forall_forall in H. apply H. rewrite <- (firstn_skipn 80 s). apply in_or_app. now right. }
  destruct (skipn 80 s) as [|b0 [|b1 [|b2 [|b3 q]]]]; cbn in L4; try lia. cbn [firstn of32].
  inversion G as [|? ? G0 G']; subst. inversion G' as [|? ? G1 G'']; subst. inversion G'' as [|? ? G2 G3']; subst. inversion G3' as [|? ? G3 _]; subst. lia.
Qed.
(** the uninitialised point of the root near the first corner: the second corner takes its place *)
Lemma stale_root j v0 v1 v2 fl : about zTOL v0 j -> ~ about zTOL v1 j -> zSTLFacetListReg (Some j) fl zVec3DTreeInit (v0, v1, v2) = zSTLFacetListReg (Some j) fl zVec3DTreeInit (v1, v1, v2).
Proof.
  intros A B. unfold zSTLFacetListReg. change zVec3DTreeInit with (T []).
  assert (E1 : zSTLVertReg (Some j) (T []) v1 = (T [v1], 0%nat)) by (apply reg_first; intros x Hx; injection Hx as <-; exact B).
  assert (E0 : zSTLVertReg (Some j) (T []) v0 = (T [], 0%nat)) by (apply equal_about in A; cbn; rewrite A; reflexivity).
  rewrite E0, E1. destruct (reg_next (Some j) [v1] v1) as (ps' & h & p & E & Hn & _ & _ & Hi); [discriminate|]. destruct (Hi (or_introl eq_refl)) as [-> ->]. rewrite E.
  destruct h as [|h]; [reflexivity|]. exfalso. cbn in Hn. destruct h; discriminate.
Qed.
Lemma stale_all c j ph v0 v1 v2 ts name : four_bytes c -> soup (pverts ph) (ph_faces ph) ((v0, v1, v2) :: ts) -> (Z.of_nat (length ts) < 2147483647)%Z -> length name = 80%nat ->
  let g := each (recoded c) in about zTOL (g v0) j -> ~ about zTOL (g v1) j ->
  exists bytes ph', zPH3DFWriteSTL_Bin c ph name = Some bytes /\ zPH3DFReadSTL_Bin c (Some j) bytes = Some (Some ph', name) /\
    welded zTOL (map (each3 g) ((v1, v1, v2) :: ts)) (pverts ph') (map face_key (pfaces ph')).
Proof.
  cbv zeta. intros F4 S B L A N. destruct (tris_ph ph _ S) as (us & E & M). unfold zPH3DFWriteSTL_Bin. rewrite L, E. cbn [Nat.ltb Nat.leb]. eexists.
  destruct (regs_all (Some j) (map (each3 (each (recoded c))) ((v1, v1, v2) :: ts))) as (fl & vt & ph' & R1 & R2 & W); [discriminate| |].
  { intros v k (a & b & r & Fc) Hk. cbn [map each3] in Fc. injection Hk as <-. injection Fc as <- _ _ _. exact N. }
  assert (LU : length us = Datatypes.S (length ts)) by (transitivity (length (map tri_of us)); [symmetry; apply map_length|rewrite M; reflexivity]).
  rewrite firstn_all2 by lia. exists ph'. split; [reflexivity|]. split; [|exact W].
  unfold zPH3DFReadSTL_Bin. rewrite firstn_app, L, Nat.sub_diag, (firstn_all2 name) by lia. cbn [firstn]. rewrite app_nil_r. rewrite fread_app by assumption. rewrite fread_app by reflexivity. rewrite of32_le32 by lia.
  destruct (Z.leb_spec (Z.of_nat (length us)) 0); [lia|]. unfold int_of_u32. destruct (Z.ltb_spec (Z.of_nat (length us)) 2147483648); [|lia]. rewrite Nat2Z.id.
  assert (Q := bin_facets c F4 (Some j) us (None, None, None) [] zVec3DTreeInit 0 ltac:(lia)). rewrite Nat.add_0_r in Q. cbn [repeat] in Q. rewrite app_nil_r in Q. rewrite Q, coded_tri, M.
  cbn [map each3 regs] in *. rewrite (stale_root j _ (each (recoded c) v1)) by assumption. rewrite R1, R2. reflexivity.
Qed.
(** whole files *)
Lemma stl_file c junk lex ph ts name bytes : four_bytes c -> soup (pverts ph) (ph_faces ph) ts -> ts <> [] -> (Z.of_nat (length ts) < 2147483648)%Z -> length name = 80%nat ->
  (forall v j, first_corner (map (each3 (each (recoded c))) ts) v -> junk = Some j -> ~ about zTOL v j) ->
  zPH3DFWriteSTL_Bin c ph name = Some bytes ->
  exists ph', zPH3DReadFileSTL lex c junk bytes = Got (Some ph') /\ welded zTOL (map (each3 (each (recoded c))) ts) (pverts ph') (map face_key (pfaces ph')).
Proof.
  intros F4 S N B L J E. destruct (stl_bin c junk ph ts name F4 S N B L J) as (bytes' & ph' & E' & I & Rd & W). assert (bytes' = bytes) by congruence. subst bytes'.
  exists ph'. split; [|exact W]. unfold zPH3DReadFileSTL. rewrite I, Rd. reflexivity.
Qed.
Lemma stl_text_file c junk lex pr ph ts w more s : soup (pverts ph) (ph_faces ph) ts -> ts <> [] -> Forall plain_word more ->
  (forall v j, first_corner (map (each3 (each pr)) ts) v -> junk = Some j -> ~ about zTOL v j) ->
  zPH3DFWriteSTL_ASCII pr ph (w :: more) = Some (lex s) -> Forall (fun b => (9 <= b < 256)%Z) s -> (Z.of_nat (length s) < 7579354134)%Z ->
  exists ph', zPH3DReadFileSTL lex c junk s = Got (Some ph') /\ welded zTOL (map (each3 (each pr)) ts) (pverts ph') (map face_key (pfaces ph')).
Proof.
  intros S N P J E H L. destruct (stl_text pr junk ph ts w more S N P J) as (text & ph' & E' & Rd & W). assert (text = lex s) by congruence. subst text.
  exists ph'. split; [|exact W]. unfold zPH3DReadFileSTL. rewrite (text_not_bin s H L). rewrite Rd by lia. reflexivity.
Qed.

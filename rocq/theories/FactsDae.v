(** Proofs about DAE files: the elements of a document. *)
From Coq Require Import Ascii String Reals Lra Lia ZArith.
From Verif Require Import FactsAlg FactsVec FactsPly FactsObj ModelDae.
From Coq Require Import List Permutation.
Import ListNotations.
Open Scope R_scope.

(** ** Attributes *)
Lemma atoi_num s n : numeral s n -> atoi s = n.
Proof.
  intros [ds (NE & F)|ds (NE & F)].
  - destruct ds as [|d ds]; [congruence|]. pose proof (Forall_inv F) as H. unfold atoi. cbn [digits_text]. destruct (digit_plain d H) as (_ & -> & ->). change (String (digit_text d) (digits_text ds)) with (digits_text (d :: ds)). rewrite atoi_digits by exact F. reflexivity.
  - unfold atoi. change (Ascii.eqb "-" "-") with true. cbv iota. rewrite atoi_digits by exact F. reflexivity.
Qed.
Lemma uint_num s n : numeral s (Z.of_nat n) -> uintOf s = Some n.
Proof. intros H. unfold uintOf. rewrite (atoi_num _ _ H). destruct (Z.ltb_spec (Z.of_nat n) 0); [lia|]. rewrite Nat2Z.id. reflexivity. Qed.
Lemma attr_none l k : ~ List.In k (map fst l) -> attrOf l k = None.
Proof. induction l as [|[a v] l IH]; intros H; [reflexivity|]. cbn [attrOf]. destruct (String.eqb_spec a k) as [E|E]; [exfalso; apply H; left; exact E|]. apply IH. intros X. apply H. right. exact X. Qed.
Lemma attr_in l k v : NoDup (map fst l) -> List.In (k, v) l -> attrOf l k = Some v.
Proof.
  induction l as [|[a u] l IH]; intros N I; [destruct I|]. cbn [map fst] in N. inversion N as [|? ? NI N']; subst. cbn [attrOf]. destruct I as [E|I].
  - inversion E; subst. rewrite String.eqb_refl. reflexivity.
  - destruct (String.eqb_spec a k) as [E|E]; [|apply IH; assumption]. subst a. exfalso. apply NI. apply (in_map fst) in I. exact I.
Qed.
Lemma has_attr n k v : has n k v -> zXMLFindNodeAttr n k = Some v.
Proof. intros (N & I). apply attr_in; assumption. Qed.
Lemma has_uri n k id : has n k (local id) -> zDAEEvalURI n k = Some id.
Proof. intros H. unfold zDAEEvalURI. rewrite (has_attr _ _ _ H). reflexivity. Qed.
Lemma float_none l c : ~ List.In "count"%string (map fst l) -> floatCount l c = Some c.
Proof. induction l as [|[a v] l IH]; intros H; [reflexivity|]. cbn [floatCount]. destruct (String.eqb_spec a "count") as [E|E]; [exfalso; apply H; left; exact E|]. apply IH. intros X. apply H. right. exact X. Qed.
Lemma float_in l c v n : NoDup (map fst l) -> List.In ("count"%string, v) l -> uintOf v = Some n -> floatCount l c = Some n.
Proof.
  revert c. induction l as [|[a u] l IH]; intros c N I U; [destruct I|]. cbn [map fst] in N. inversion N as [|? ? NI N']; subst. cbn [floatCount]. destruct I as [E|I].
  - inversion E; subst. rewrite String.eqb_refl, U. apply float_none. exact NI.
  - destruct (String.eqb_spec a "count") as [E|E]; [|apply IH; assumption]. subst a. exfalso. apply NI. apply (in_map fst) in I. exact I.
Qed.
Definition optn (o : option string) (d : nat) : option nat := match o with Some v => uintOf v | None => Some d end.
Lemma accessor_attrs l : forall s a b, NoDup (map fst l) -> optn (attrOf l "count") (svcount s) = Some a -> optn (attrOf l "stride") (sstride s) = Some b ->
  accessorAttrs l s = ROk (SRC (sid s) (scount s) a b (scontent s) (sacc s) (stype s)).
Proof.
  induction l as [|[k v] l IH]; intros s a b N A B; cbn [attrOf accessorAttrs] in *.
  - cbn in A, B. inversion A; inversion B; subst. destruct s; reflexivity.
  - cbn [map fst] in N. inversion N as [|? ? NI N']; subst. destruct (String.eqb_spec k "count") as [E|E].
    + subst k. cbn [optn] in A. rewrite A. change (String.eqb "count" "stride") with false in B. cbv iota in B. rewrite (IH _ a b N'); [reflexivity|cbn [svcount]; rewrite (attr_none _ _ NI); reflexivity|exact B].
    + destruct (String.eqb_spec k "stride") as [E2|E2]; [|apply IH; assumption]. subst k. cbn [optn] in B. rewrite B. rewrite (IH _ a b N'); [reflexivity|exact A|cbn [sstride]; rewrite (attr_none _ _ NI); reflexivity].
Qed.
Lemma setacc_none l s i : ~ List.In "name"%string (map fst l) -> zDAESrcSetAccessor l s i = ROk s.
Proof. revert s. induction l as [|[a v] l IH]; intros s H; [reflexivity|]. cbn [zDAESrcSetAccessor]. destruct (String.eqb_spec a "name") as [E|E]; [exfalso; apply H; left; exact E|]. apply IH. intros X. apply H. right. exact X. Qed.
Definition oneCol (s : zDAESrc) (i : nat) (c : ascii) : rd zDAESrc :=
  match accessorLetter c with
  | Some (a, t) => match putAt (sacc s) i a with Some acc => ROk (SRC (sid s) (scount s) (svcount s) (sstride s) (scontent s) acc t) | None => RUndef end
  | None => ROk s
  end.
Lemma setacc_in l s i c r : NoDup (map fst l) -> List.In ("name"%string, String c r) l -> zDAESrcSetAccessor l s i = oneCol s i c.
Proof.
  revert s. induction l as [|[a u] l IH]; intros s N I; [destruct I|]. cbn [map fst] in N. inversion N as [|? ? NI N']; subst. cbn [zDAESrcSetAccessor]. destruct I as [E|I].
  - inversion E; subst. rewrite String.eqb_refl. unfold oneCol. destruct (accessorLetter c) as [[x t]|]; [|apply setacc_none; exact NI]. destruct (putAt (sacc s) i x); [apply setacc_none; exact NI|reflexivity].
  - destruct (String.eqb_spec a "name") as [E|E]; [|apply IH; assumption]. subst a. exfalso. apply NI. apply (in_map fst) in I. exact I.
Qed.
(** ** Children *)
Lemma each_filter {S} strict (exec : S -> xnode -> rd S) names l : (forall s n, among names n = false -> exec s n = ROk s) -> forall s, eachNode strict exec s l = eachNode strict exec s (filter (among names) l).
Proof.
  intros H. induction l as [|n l IH]; intros s; [reflexivity|]. cbn [filter eachNode]. destruct (among names n) eqn:A.
  - cbn [eachNode]. destruct (exec s n) as [t|t|]; [apply IH|destruct strict; [reflexivity|apply IH]|reflexivity].
  - rewrite (H s n A). apply IH.
Qed.
Lemma find_filter l key : zXMLFindNodeElement l key = hd_error (filter (among [key]) l).
Proof. unfold zXMLFindNodeElement. induction l as [|n l IH]; [reflexivity|]. cbn [find filter]. unfold among at 1. cbn [existsb]. rewrite Bool.orb_false_r. destruct (String.eqb (xname n) key); [reflexivity|exact IH]. Qed.
Lemma among_1 key n : among [key] n = String.eqb (xname n) key.
Proof. unfold among. cbn [existsb]. apply Bool.orb_false_r. Qed.
Lemma among_2 a b n : among [a; b] n = (String.eqb (xname n) a || String.eqb (xname n) b)%bool.
Proof. unfold among. cbn [existsb]. rewrite Bool.orb_false_r. reflexivity. Qed.
Lemma kids_name n names k : List.In k (kids n names) -> among names k = true.
Proof. intros H. apply filter_In in H. apply H. Qed.

(** ** Sources *)
Lemma skipn_plus {A} (a b : nat) (q : list A) : skipn a (skipn b q) = skipn (b + a) q.
Proof. revert q. induction b as [|b IH]; intros q; [reflexivity|]. destruct q as [|z q]; [rewrite !skipn_nil; reflexivity|]. cbn [skipn plus]. apply IH. Qed.
Lemma one_col s i c : length (sacc s) = 3%nat -> (i < 3)%nat -> exists acc ty, oneCol s i c = ROk (SRC (sid s) (scount s) (svcount s) (sstride s) (scontent s) acc ty) /\ length acc = 3%nat /\
  forall a, (a < 3)%nat -> axis_letter c a -> acc = firstn i (sacc s) ++ a :: skipn (Datatypes.S i) (sacc s) /\ ty = DXYZ.
Proof.
  intros L I. unfold oneCol.
  assert (P : forall a, exists acc, putAt (sacc s) i a = Some acc /\ length acc = 3%nat /\ acc = firstn i (sacc s) ++ a :: skipn (Datatypes.S i) (sacc s)).
  { intros a. destruct (sacc s) as [|a0 [|a1 [|a2 [|]]]]; try discriminate L. destruct i as [|[|[|i]]]; [| | |lia]; eexists; (split; [reflexivity|split; reflexivity]). }
  destruct (accessorLetter c) as [[a t]|] eqn:A.
  - destruct (P a) as (acc & E & LA & EA). rewrite E. exists acc, t. split; [reflexivity|]. split; [exact LA|]. intros b B X.
    destruct b as [|[|[|b]]]; [| | |lia]; cbn [axis_letter] in X; destruct X as [->| ->]; cbn in A; inversion A; subst; (split; [reflexivity|reflexivity]).
  - exists (sacc s), (stype s). split; [destruct s; reflexivity|]. split; [exact L|]. intros b B X. exfalso.
    destruct b as [|[|[|b]]]; [| | |lia]; cbn [axis_letter] in X; destruct X as [->| ->]; cbn in A; discriminate.
Qed.
Lemma params_none l : forall s k, filter (among ["param"%string]) l = [] -> (k <= sstride s)%nat -> accessorParams l s k = ROk s.
Proof. induction l as [|m l IH2]; intros s0 k F0 K; [reflexivity|]. cbn [filter accessorParams] in *. rewrite among_1 in F0. destruct (String.eqb (xname m) "param"); [discriminate|]. replace (Nat.ltb (sstride s0) k) with false by (symmetry; apply Nat.ltb_ge; lia). apply IH2; assumption. Qed.
Lemma params_ok l : forall cols s i, Forall2 column_named cols (filter (among ["param"%string]) l) -> length (sacc s) = 3%nat -> (i + length cols <= 3)%nat -> sstride s = (i + length cols)%nat ->
  exists acc ty, accessorParams l s i = ROk (SRC (sid s) (scount s) (svcount s) (sstride s) (scontent s) acc ty) /\ length acc = 3%nat /\
  forall axes, Forall (fun a => (a < 3)%nat) axes -> Forall2 axis_letter cols axes -> acc = firstn i (sacc s) ++ axes ++ skipn (i + length cols) (sacc s) /\ (cols <> [] -> ty = DXYZ).
Proof.
  induction l as [|n l IH]; intros cols s i F L B ST.
  - cbn in F. inversion F; subst. exists (sacc s), (stype s). split; [destruct s; reflexivity|]. split; [exact L|]. intros axes _ F2. inversion F2; subst. split; [|congruence]. cbn [length app]. rewrite Nat.add_0_r, firstn_skipn. reflexivity.
  - cbn [filter accessorParams] in *. rewrite among_1 in F. destruct (String.eqb (xname n) "param").
    + destruct cols as [|c cols]; inversion F as [|? ? ? ? C F']; subst. destruct C as (r & N & I). cbn [length] in *. rewrite (setacc_in _ s i c r N I). destruct (one_col s i c L ltac:(lia)) as (acc & ty & E & LA & X). rewrite E. cbn [sstride].
      replace (Nat.ltb (sstride s) (Datatypes.S i)) with false by (symmetry; apply Nat.ltb_ge; lia).
      destruct (IH cols (SRC (sid s) (scount s) (svcount s) (sstride s) (scontent s) acc ty) (Datatypes.S i) F') as (acc' & ty' & E' & LA' & X'); [exact LA|lia|cbn [sstride]; lia|].
      exists acc', ty'. split; [exact E'|]. split; [exact LA'|]. intros axes FA F2. inversion F2 as [|? a ? axes' AL F3]; subst. inversion FA; subst. destruct (X a ltac:(assumption) AL) as (-> & ->). destruct (X' axes' ltac:(assumption) F3) as (-> & T). cbn [sacc].
      split.
      * assert (LI : length (firstn i (sacc s)) = i) by (rewrite firstn_length; lia).
        replace (firstn (Datatypes.S i) (firstn i (sacc s) ++ a :: skipn (Datatypes.S i) (sacc s))) with (firstn i (sacc s) ++ [a]).
        2:{ rewrite firstn_app, LI. rewrite (firstn_all2 (firstn i (sacc s))) by lia. replace (Datatypes.S i - i)%nat with 1%nat by lia. reflexivity. }
        rewrite <- app_assoc. cbn [app]. do 3 f_equal.
        rewrite skipn_app, LI, (skipn_all2 (firstn i (sacc s))) by lia. replace (Datatypes.S i + length cols - i)%nat with (Datatypes.S (length cols)) by lia.
        change (skipn (length cols) (skipn (Datatypes.S i) (sacc s)) = skipn (i + Datatypes.S (length cols)) (sacc s)). rewrite skipn_plus. f_equal. lia.
      * intros _. destruct cols as [|c' cols]; [|apply T; discriminate].
        assert (Q : filter (among ["param"%string]) l = []) by (inversion F'; reflexivity). rewrite params_none in E'; [inversion E'; reflexivity|exact Q|cbn [sstride length] in *; lia].
    + replace (Nat.ltb (sstride s) i) with false by (symmetry; apply Nat.ltb_ge; lia). apply IH; assumption.
Qed.
Lemma source_ok strict n id cols rows ws sl : source_doc n id cols rows ws -> exists acc ty, length acc = 3%nat /\
  zDAESrcEval strict n sl = ROk (sl ++ [SRC (Some id) (rows * length cols) rows (length cols) (Some ws) acc ty]) /\
  forall axes, length cols = 3%nat -> Forall (fun a => (a < 3)%nat) axes -> Forall2 axis_letter cols axes -> acc = axes /\ ty = DXYZ.
Proof.
  intros (ID & fa & tc & ac & K & NF & NT & (cs & (CN & CI) & CU) & TX & HA & (vs & (VN & VI) & VU) & (ss & (_ & SI) & SU) & LE & P).
  destruct (params_ok (xkids ac) cols (SRC (Some id) (rows * length cols) rows (length cols) (Some ws) [0; 0; 0]%nat DINVALID) 0 P eq_refl LE eq_refl) as (acc & ty & E & LA & X).
  exists acc, ty. split; [exact LA|]. split.
  - unfold zDAESrcEval. rewrite (has_attr _ _ _ ID).
    rewrite (each_filter strict _ ["float_array"; "technique_common"]%string) by (intros s k A; rewrite among_2 in A; apply Bool.orb_false_iff in A; destruct A as (-> & ->); reflexivity).
    change (filter (among ["float_array"%string; "technique_common"%string]) (xkids n)) with (kids n ["float_array"; "technique_common"]%string). rewrite K. cbn [eachNode]. rewrite NF, NT. change (String.eqb "float_array" "float_array") with true. change (String.eqb "technique_common" "float_array") with false. change (String.eqb "technique_common" "technique_common") with true. cbv iota.
    unfold zDAESrcEvalFloatArray. rewrite (float_in _ _ cs (rows * length cols) CN CI (uint_num _ _ CU)), TX. cbn [sid svcount sstride sacc stype].
    unfold zDAESrcEvalAccessor. rewrite find_filter. change (filter (among ["accessor"%string]) (xkids tc)) with (kids tc ["accessor"%string]). rewrite HA.
    rewrite (accessor_attrs _ _ rows (length cols) VN); [|rewrite (attr_in _ _ _ VN VI); apply uint_num; exact VU|rewrite (attr_in _ _ _ VN SI); apply uint_num; exact SU]. cbn [sid scount svcount sstride scontent sacc stype].
    rewrite Nat.eqb_refl. rewrite E. reflexivity.
  - intros axes L3 FA F2. destruct (X axes FA F2) as (-> & T). cbn [sacc firstn app]. rewrite L3. cbn [plus skipn]. rewrite app_nil_r. split; [reflexivity|]. apply T. intros ->. discriminate.
Qed.

(** ** Vertices *)
Lemma vert_input_skip l n m : ~ List.In ("semantic", "POSITION")%string l -> vertInput l n m = None.
Proof.
  induction l as [|[k v] l IH]; intros H; [reflexivity|]. cbn [vertInput]. destruct (String.eqb_spec k "semantic") as [->|]; [destruct (String.eqb_spec v "POSITION") as [->|]; [exfalso; apply H; left; reflexivity|]|]; cbn [andb]; apply IH; intros X; apply H; right; exact X.
Qed.
Lemma src_find sl1 s sl2 id : Forall (fun x => exists i, sid x = Some i /\ i <> id) sl1 -> sid s = Some id -> zDAESrcFind (sl1 ++ s :: sl2) id = ROk (Some s).
Proof.
  intros F S. induction F as [|x l (i & E & N) F IH]; cbn [app zDAESrcFind].
  - rewrite S, String.eqb_refl. reflexivity.
  - rewrite E. destruct (String.eqb_spec i id); [congruence|exact IH].
Qed.
Definition withVert (m : zDAEMesh) (s : zDAESrc) : zDAEMesh := MESH (mslist m) (Some s) (mid m) (mvid m) (mplist m) (mframe m).
Lemma vert_input_hit l n m src s : List.In ("semantic", "POSITION")%string l -> zDAEEvalURI n "source" = Some src -> zDAESrcFind (mslist m) src = ROk (Some s) -> stype s = DXYZ -> vertInput l n m = Some (ROk (withVert m s)).
Proof.
  intros I U F T. induction l as [|[k v] l IH]; [destruct I|]. cbn [vertInput]. destruct (String.eqb_spec k "semantic") as [->|NK]; [destruct (String.eqb_spec v "POSITION") as [->|NV]|]; cbn [andb].
  - rewrite U, F. cbn zeta. rewrite T. reflexivity.
  - apply IH. destruct I as [E|I]; [inversion E; congruence|exact I].
  - apply IH. destruct I as [E|I]; [inversion E; congruence|exact I].
Qed.
Lemma vert_ok n m vid src s : vertices_doc n vid src -> zDAESrcFind (mslist m) src = ROk (Some s) -> stype s = DXYZ ->
  zDAESrcEvalVert n m = ROk (MESH (mslist m) (Some s) (mid m) (Some vid) (mplist m) (mframe m)).
Proof.
  intros (ID & pre & inp & post & K & (_ & P) & S & NP) F T. unfold zDAESrcEvalVert. rewrite (has_attr _ _ _ ID). set (m' := MESH _ _ _ _ _ _). unfold kids in K.
  assert (F' : zDAESrcFind (mslist m') src = ROk (Some s)) by exact F.
  assert (G : vertInputs (xkids n) m' = ROk (withVert m' s)); [|rewrite G; reflexivity].
  revert pre K NP. generalize (xkids n) as l. induction l as [|k l IH]; intros pre K NP; [destruct pre; discriminate|]. cbn [filter vertInputs] in *. rewrite among_1 in K. destruct (String.eqb (xname k) "input"); [|apply (IH pre K NP)].
  destruct pre as [|q pre]; cbn [app] in K; inversion K; subst.
  - rewrite (vert_input_hit _ inp m' src s P (has_uri _ _ _ S) F' T). reflexivity.
  - rewrite vert_input_skip by (apply NP; left; reflexivity). apply (IH pre); [assumption|]. intros x X. apply NP. right. exact X.
Qed.

(** ** Groups of triangles *)
Definition pair_dec : forall a b : string * string, {a = b} + {a <> b}.
Proof. decide equality; apply string_dec. Defined.
Lemma face_input_ok l n vid o p : (List.In ("semantic", "VERTEX")%string l -> zDAEEvalURI n "source" = Some vid) -> exists vo', faceInput l n (Some vid) o p = ROk (PRIM (pvcount p) (pcount p) (pni p) vo' (pp p)) /\
  (List.In ("semantic", "VERTEX")%string l -> vo' = o) /\ (~ List.In ("semantic", "VERTEX")%string l -> vo' = pvoffset p).
Proof.
  revert p. induction l as [|[k v] l IH]; intros p U; cbn [faceInput]; [exists (pvoffset p); split; [destruct p; reflexivity|split; [intros []|reflexivity]]|].
  destruct (String.eqb_spec k "semantic") as [->|NK]; [destruct (String.eqb_spec v "VERTEX") as [->|NV]|]; cbn [andb].
  - rewrite (U (or_introl eq_refl)). cbn zeta. rewrite String.eqb_refl. destruct (IH (PRIM (pvcount p) (pcount p) (pni p) o (pp p)) (fun H => U (or_intror H))) as (vo' & E & A & B). exists vo'. split; [exact E|]. split; [|intros H; exfalso; apply H; left; reflexivity].
    intros _. cbn [pvoffset] in B. destruct (in_dec pair_dec ("semantic", "VERTEX")%string l) as [I|I]; [apply A, I|apply B, I].
  - destruct (IH p (fun H => U (or_intror H))) as (vo' & E & A & B). exists vo'. split; [exact E|]. split; [intros [X|X]; [inversion X; congruence|apply A, X]|intros H; apply B; intros X; apply H; right; exact X].
  - destruct (IH p (fun H => U (or_intror H))) as (vo' & E & A & B). exists vo'. split; [exact E|]. split; [intros [X|X]; [inversion X; congruence|apply A, X]|intros H; apply B; intros X; apply H; right; exact X].
Qed.
Definition lastText (name : string) (l : list xnode) (d : option (list xword)) : option (list xword) := fold_left (fun _ n => xtext n) (filter (among [name]) l) d.
Lemma face_nodes l vid vo : forall offs p, Forall2 (fun k o => counted k "offset" o /\ (List.In ("semantic", "VERTEX")%string (xattrs k) -> o = vo /\ has k "source" (local vid))) (filter (among ["input"%string]) l) offs ->
  exists vo', faceNodes l (Some vid) p = ROk (PRIM (lastText "vcount" l (pvcount p)) (pcount p) (Datatypes.S (Nat.max (pni p) (fold_right Nat.max 0%nat offs))) vo' (lastText "p" l (pp p))) /\
  ((pvoffset p = vo \/ exists k, List.In k (filter (among ["input"%string]) l) /\ List.In ("semantic", "VERTEX")%string (xattrs k)) -> vo' = vo).
Proof.
  unfold lastText. induction l as [|n l IH]; intros offs p F.
  - cbn in F. inversion F; subst. cbn [faceNodes filter fold_left fold_right]. rewrite Nat.max_0_r. exists (pvoffset p). split; [reflexivity|]. intros [H|(k & [] & _)]. exact H.
  - cbn [filter] in *. rewrite among_1 in F. rewrite !among_1. cbn [faceNodes]. destruct (String.eqb (xname n) "input") eqn:NI.
    + apply String.eqb_eq in NI. rewrite NI in *. change (String.eqb "input" "vcount") with false. change (String.eqb "input" "p") with false. cbv iota.
      inversion F as [|? o ? offs' ((s & HO & NO) & HV) F']; subst. rewrite (has_attr _ _ _ HO), (uint_num _ _ NO).
      destruct (face_input_ok (xattrs n) n vid o (PRIM (pvcount p) (pcount p) (Nat.max (pni p) o) (pvoffset p) (pp p))) as (vo' & E & A & B); [intros I; apply has_uri; apply HV; exact I|]. rewrite E. cbn [pvcount pcount pni pp] in *.
      destruct (IH offs' (PRIM (pvcount p) (pcount p) (Nat.max (pni p) o) vo' (pp p)) F') as (vo2 & E2 & C). rewrite E2. exists vo2. cbn [pvcount pcount pni pp pvoffset fold_right] in *. split; [rewrite Nat.max_assoc; reflexivity|].
      intros H. apply C. destruct (in_dec pair_dec ("semantic", "VERTEX")%string (xattrs n)) as [I|I].
      * left. rewrite (A I). apply HV. exact I.
      * destruct H as [H|(k & [<-|K1] & K2)]; [left; rewrite (B I); exact H|contradiction|right; exists k; split; assumption].
    + destruct (String.eqb (xname n) "vcount") eqn:NV; [|destruct (String.eqb (xname n) "p") eqn:NP].
      * apply String.eqb_eq in NV. rewrite NV. change (String.eqb "vcount" "p") with false. cbv iota. cbn [fold_left]. destruct (IH offs (PRIM (xtext n) (pcount p) (pni p) (pvoffset p) (pp p)) F) as (vo' & E & C). exists vo'. split; [exact E|exact C].
      * cbn [fold_left]. destruct (IH offs (PRIM (pvcount p) (pcount p) (pni p) (pvoffset p) (xtext n)) F) as (vo' & E & C). exists vo'. split; [exact E|exact C].
      * destruct (IH offs p F) as (vo' & E & C). exists vo'. split; [exact E|exact C].
Qed.
Definition prim_rel (p : zDAEPrimitive) (ts : list (nat * nat * nat)) : Prop :=
  pcount p = length ts /\ (pvoffset p < pni p)%nat /\ exists ws, pp p = Some ws /\
  match pvcount p with None => True | Some cs => forall i, (i < length ts)%nat -> wint (nth i cs wnone) = 3%Z end /\
  forall i t, nth_error ts i = Some t -> tri_words ws (pni p) (pvoffset p) i t.
Lemma le_foldmax o offs : List.In o offs -> (o <= fold_right Nat.max 0 offs)%nat.
Proof. induction offs as [|x offs IH]; intros H; [destruct H|]. cbn [fold_right]. destruct H as [->|H]; [lia|]. specialize (IH H). lia. Qed.
Lemma prim_ok vid n ts m : prim_doc vid n ts -> mvid m = Some vid -> exists p, zDAEPrimitiveEvalFace n m = ROk (addPrim m p) /\ prim_rel p ts.
Proof.
  intros ((s & HC & NC) & offs & vo & pn & ws & (F & k & KI & KS) & PN & PT & VC & TW) MV. unfold zDAEPrimitiveEvalFace. rewrite (has_attr _ _ _ HC), (uint_num _ _ NC), MV.
  destruct (face_nodes (xkids n) vid vo offs (PRIM None (length ts) 0 0 None) F) as (vo' & E & C). rewrite E. clear E.
  assert (V : vo' = vo) by (apply C; right; exists k; split; [exact KI|apply KS]). subst vo'. cbn [pvcount pcount pni pvoffset pp Nat.max] in *.
  eexists. split; [reflexivity|]. split; [reflexivity|]. cbn [pvoffset pni pp pvcount]. split.
  - destruct KS as (_ & KS). clear - F KI KS. assert (X : List.In vo offs). { induction F as [|a o l offs (_ & H) F IH]; [destruct KI|]. destruct KI as [->|KI]; [left; apply (H KS)|right; apply (IH KI)]. } apply le_foldmax in X. lia.
  - exists ws. unfold lastText. fold (kids n ["p"%string]). fold (kids n ["vcount"%string]). rewrite PN. cbn [fold_left]. split; [exact PT|]. split.
    + destruct VC as [-> |(vn & cs & -> & TX & H)]; cbn [fold_left]; [exact I|]. rewrite TX. exact H.
    + exact TW.
Qed.

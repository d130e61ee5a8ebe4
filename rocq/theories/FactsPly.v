(** PLY files: reading numbers, header and rows. *)
From Coq Require Import Ascii String List ZArith Lia Lra Reals.
From Verif Require Import Base SpecPly ModelPly FactsStl.
Import ListNotations.
Open Scope list_scope.
Open Scope R_scope.

Definition fmt (f : ply_format) : zPLYFormat := match f with PText => ZASCII | PLittle => ZBIN | PBig => ZBIN_REV end.
Definition kind_of (d : zPLYDATA) : option kind :=
  match d with ZCHAR | ZUCHAR => Some (KInt 1) | ZSHORT | ZUSHORT => Some (KInt 2) | ZINT | ZUINT => Some (KInt 4) | ZFLOAT => Some KFloat | ZDOUBLE => Some KDouble | ZLIST => None end.
Definition dtf (t : string) : zPLYDATA := match zPLYPrpFind (HW t) with Some d => d | None => ZLIST end.

Lemma find_kind t k : kind_named t = Some k -> zPLYPrpFind (HW t) = Some (dtf t) /\ kind_of (dtf t) = Some k.
Proof.
  unfold dtf. unfold kind_named. intros H.
  assert (G : exists d, zPLYPrpFind (HW t) = Some d /\ kind_of d = Some k).
  { unfold zPLYPrpFind, hword_is.
    destruct (String.eqb t "char"); cbn [orb] in H; [injection H as <-; eexists; split; reflexivity|].
    destruct (String.eqb t "uchar"); cbn [orb] in H; [injection H as <-; eexists; split; reflexivity|].
    destruct (String.eqb t "short"); cbn [orb] in H; [injection H as <-; eexists; split; reflexivity|].
    destruct (String.eqb t "ushort"); cbn [orb] in H; [injection H as <-; eexists; split; reflexivity|].
    destruct (String.eqb t "int"); cbn [orb] in H; [injection H as <-; eexists; split; reflexivity|].
    destruct (String.eqb t "uint"); cbn [orb] in H; [injection H as <-; eexists; split; reflexivity|].
    destruct (String.eqb t "float"); [injection H as <-; eexists; split; reflexivity|].
    destruct (String.eqb t "double"); [injection H as <-; eexists; split; reflexivity|]. discriminate. }
  destruct G as (d & -> & K). auto.
Qed.

Lemma int_part_IZR n : Int_part (IZR n) = n.
Proof.
  destruct (base_Int_part (IZR n)) as [A B]. apply le_IZR in A.
  assert (IZR n - 1 < IZR (Int_part (IZR n))) as C by lra. rewrite <- minus_IZR in C. apply lt_IZR in C. lia.
Qed.
Lemma whole_IZR n : wholeZ (IZR n) = Some n.
Proof. unfold wholeZ. rewrite int_part_IZR. destruct (Req_EM_T (IZR n) (IZR n)) as [_|N]; [reflexivity|contradiction]. Qed.
Lemma trunc_IZR n : truncZ (IZR n) = n.
Proof.
  unfold truncZ. rewrite <- opp_IZR, !int_part_IZR. destruct (Rle_dec 0 (IZR n)); [reflexivity|lia].
Qed.
Lemma take_bytes bs : forall rest, takeBytes (length bs) (map DB bs ++ rest) = Some (bs, rest).
Proof. induction bs as [|b r IH]; intros rest; cbn [length map app takeBytes]; [reflexivity|]. rewrite IH. reflexivity. Qed.
Lemma take_n n bs rest : length bs = n -> takeBytes n (map DB bs ++ rest) = Some (bs, rest).
Proof. intros <-. apply take_bytes. Qed.
Lemma low_length b : forall n, length (low_first b n) = b.
Proof. induction b as [|b IH]; intros n; cbn [low_first length]; [reflexivity|rewrite IH; reflexivity]. Qed.
Lemma low_value b : forall n, (0 <= n < 256 ^ Z.of_nat b)%Z -> unsignedZ (low_first b n) = n.
Proof.
  induction b as [|b IH]; intros n H; cbn [low_first unsignedZ].
  - cbn in H. lia.
  - rewrite Nat2Z.inj_succ, Z.pow_succ_r in H by lia.
    rewrite IH; [rewrite Z.add_comm; symmetry; apply Z.div_mod; lia|].
    split; [apply Z.div_pos; lia|]. apply Z.div_lt_upper_bound; lia.
Qed.
Lemma host_rev bs : hostBytes ZBIN_REV (rev bs) = bs.
Proof. apply rev_involutive. Qed.

Section Reading.
Variable c : codes.

Lemma read_double_ok f k x ds d rest : denotes c f k x ds -> kind_of d = Some k -> read_double c (fmt f) d (ds ++ rest) = Some (x, rest).
Proof.
  intros H K. destruct H; cbn [fmt]; unfold read_double; destruct d; try discriminate K; try (injection K as <-); cbn [app zPLYSize]; rewrite ?whole_IZR; try reflexivity;
    match goal with
    | |- context[low_first ?b ?n] => rewrite take_n by (rewrite ?rev_length, ?low_length; reflexivity); rewrite ?host_rev; cbn [hostBytes]; rewrite low_value by lia; reflexivity
    | _ => rewrite take_n by (rewrite ?rev_length; assumption); rewrite ?host_rev; reflexivity
    end.
Qed.
Lemma read_int_double f d s x r n : read_double c f d s = Some (x, r) -> x = IZR n -> (0 <= n)%Z -> (2 * n < 4294967296)%Z \/ f = ZASCII \/ d = ZFLOAT \/ d = ZDOUBLE ->
  read_int c f d s = Some (n, r).
Proof.
  intros H -> P Q. unfold read_double in H. unfold read_int.
  assert (U : forall m, IZR m = IZR n -> (2 * n < 4294967296)%Z -> int_of_u32 m = n).
  { intros m E B. apply eq_IZR in E. subst m. unfold int_of_u32. destruct (Z.ltb_spec n 2147483648); [reflexivity|lia]. }
  destruct f.
  - destruct s as [|[y|b] s]; destruct d; try discriminate H;
      try (destruct (wholeZ y) as [m|] eqn:W; [|discriminate H]; injection H as E <-; apply eq_IZR in E; subst m; reflexivity);
      injection H as -> <-; rewrite trunc_IZR; reflexivity.
  - destruct d; try discriminate H; destruct (takeBytes _ s) as [[bs r']|]; try discriminate H; injection H as E <-;
      try (cbn [hostBytes]; rewrite E, trunc_IZR; reflexivity); (destruct Q as [Q|[Q|[Q|Q]]]; try discriminate Q); do 2 f_equal; apply U; assumption.
  - destruct d; try discriminate H; destruct (takeBytes _ s) as [[bs r']|]; try discriminate H; injection H as E <-;
      try (cbn [hostBytes]; rewrite E, trunc_IZR; reflexivity); (destruct Q as [Q|[Q|[Q|Q]]]; try discriminate Q); do 2 f_equal; apply U; assumption.
Qed.
Lemma read_int_ok f k n ds d rest : denotes c f k (IZR (Z.of_nat n)) ds -> kind_of d = Some k -> read_int c (fmt f) d (ds ++ rest) = Some (Z.of_nat n, rest).
Proof.
  intros H K. apply (read_int_double _ _ _ (IZR (Z.of_nat n))); [eapply read_double_ok; eauto|reflexivity|lia|].
  remember (IZR (Z.of_nat n)) as x. destruct H; cbn [fmt]; auto; try (destruct d; try discriminate K; auto; fail).
  - left. apply eq_IZR in Heqx. subst n0. assert (256 ^ Z.of_nat b <= 256 ^ 4)%Z by (apply Z.pow_le_mono_r; [lia|]; destruct d; try discriminate K; injection K as <-; cbn; lia). change (256 ^ 4)%Z with 4294967296%Z in *. lia.
  - left. apply eq_IZR in Heqx. subst n0. assert (256 ^ Z.of_nat b <= 256 ^ 4)%Z by (apply Z.pow_le_mono_r; [lia|]; destruct d; try discriminate K; injection K as <-; cbn; lia). change (256 ^ 4)%Z with 4294967296%Z in *. lia.
Qed.

(** ** header *)
Lemma header_filter lines : forall p, zPLYFReadHeader lines p = zPLYFReadHeader (filter keyword_line lines) p.
Proof.
  induction lines as [|l more IH]; intros p; [reflexivity|]. cbn [filter].
  destruct (keyword_line l) eqn:K.
  - cbn [zPLYFReadHeader]. destruct (nextWord l) as [t r].
    destruct (hword_is t "end_header"); [reflexivity|].
    destruct (hword_is t "format"); [destruct (zPLYFReadFormat p r); [apply IH|reflexivity]|].
    destruct (hword_is t "element"); [destruct (zPLYFReadElement p r) as [[q|]|]; [apply IH|reflexivity|reflexivity]|].
    destruct (hword_is t "property"); [destruct (zPLYFReadProperty p r) as [[q|]|]; [apply IH|reflexivity|reflexivity]|]. apply IH.
  - cbn [zPLYFReadHeader]. rewrite <- IH. destruct l as [|[w|n] l]; cbn [nextWord hword_is]; try reflexivity.
    cbn [keyword_line] in K. apply Bool.orb_false_elim in K. destruct K as [K K4]. apply Bool.orb_false_elim in K. destruct K as [K K3].
    apply Bool.orb_false_elim in K. destruct K as [K1 K2]. rewrite K1, K2, K3, K4. reflexivity.
Qed.

Definition prp_of (p : property) : zPLYDATA := match p with Number t _ => dtf t | Indices _ _ => ZLIST end.
Fixpoint upd (name : string) (j : nat) (ps : list property) (old : nat) : nat :=
  match ps with
  | [] => old
  | Number _ n :: ps => upd name (Datatypes.S j) ps (if String.eqb n name then j else old)
  | _ :: ps => upd name (Datatypes.S j) ps old
  end.
Definition is_vertex (t : zPLYElemType) : bool := match t with ZVERTEX => true | _ => false end.
Fixpoint updl (sel : string * string -> string) (ps : list property) (old : option zPLYDATA) : option zPLYDATA :=
  match ps with [] => old | Indices tn t :: ps => updl sel ps (zPLYPrpFind (HW (sel (tn, t)))) | _ :: ps => updl sel ps old end.
Definition known_prop (p : property) : Prop := match p with Number t _ => known t | Indices tn t => known tn /\ known t end.

Lemma last_elem es e : lastElem (es ++ [e]) = Some (es, e).
Proof.
  induction es as [|a r IH]; [reflexivity|]. cbn [app]. destruct (r ++ [e]) as [|x y] eqn:E; [destruct r; discriminate E|].
  cbn [lastElem] in *. rewrite IH. reflexivity.
Qed.
Lemma dtf_not_list t : known t -> zPLYPrpFind (HW t) = Some (dtf t) /\ dtf t <> ZLIST.
Proof. intros [k K]. destruct (find_kind t k K) as [A B]. split; [exact A|]. intros E. rewrite E in B. discriminate. Qed.

Lemma read_props ps : forall f es et n pre x y z ln le more, (forall p, List.In p ps -> known_prop p) -> (length pre + length ps < 12)%nat ->
  zPLYFReadHeader (map property_line ps ++ more) (PLY (Some f) (es ++ [PE et n pre]) x y z ln le) =
  zPLYFReadHeader more (PLY (Some f) (es ++ [PE et n (pre ++ map prp_of ps)])
    (if is_vertex et then upd "x" (length pre) ps x else x) (if is_vertex et then upd "y" (length pre) ps y else y) (if is_vertex et then upd "z" (length pre) ps z else z)
    (updl fst ps ln) (updl snd ps le)).
Proof.
  induction ps as [|p ps IH]; intros f es et n pre x y z ln le more K L.
  - cbn [map app upd updl]. rewrite app_nil_r. destruct (is_vertex et); reflexivity.
  - cbn [length] in L. assert (K' : forall q, List.In q ps -> known_prop q) by (intros q Q; apply K; right; exact Q).
    assert (KP := K p (or_introl eq_refl)).
    assert (LL : length (pre ++ [prp_of p]) = Datatypes.S (length pre)) by (rewrite app_length; cbn [length]; lia).
    assert (NL : Nat.leb 12 (Datatypes.S (length pre)) = false) by (apply Nat.leb_gt; lia).
    replace (pre ++ map prp_of (p :: ps)) with ((pre ++ [prp_of p]) ++ map prp_of ps) by (rewrite <- app_assoc; reflexivity).
    destruct p as [t name|tn t]; cbn [map property_line app].
    + destruct (dtf_not_list t KP) as [A B]. cbn [zPLYFReadHeader nextWord].
      change (hword_is (HW "property") "end_header") with false. change (hword_is (HW "property") "format") with false.
      change (hword_is (HW "property") "element") with false. change (hword_is (HW "property") "property") with true. cbv iota.
      unfold zPLYFReadProperty. cbn [p_elem p_format p_x p_y p_z p_listnum p_listelem nextWord]. rewrite last_elem, A. cbv zeta. cbn [pe_type pe_num pe_prp].
      rewrite NL. cbn [upd updl prp_of].
      assert (G : forall e1 e2 e3, zPLYFReadHeader (map property_line ps ++ more) (PLY (Some f) (es ++ [PE et n (pre ++ [dtf t])]) e1 e2 e3 ln le) =
        zPLYFReadHeader more (PLY (Some f) (es ++ [PE et n ((pre ++ [dtf t]) ++ map prp_of ps)])
          (if is_vertex et then upd "x" (Datatypes.S (length pre)) ps e1 else e1) (if is_vertex et then upd "y" (Datatypes.S (length pre)) ps e2 else e2) (if is_vertex et then upd "z" (Datatypes.S (length pre)) ps e3 else e3)
          (updl fst ps ln) (updl snd ps le))).
      { intros e1 e2 e3. cbn [prp_of] in LL. rewrite IH; [rewrite LL; reflexivity|exact K'|rewrite LL; lia]. }
      cbn [hword_is].
      assert (GV : forall (X : option (option zPLY)),
        X = Some (Some (PLY (Some f) (es ++ [PE et n (pre ++ [dtf t])]) (if is_vertex et then (if String.eqb name "x" then length pre else x) else x)
                (if is_vertex et then (if String.eqb name "y" then length pre else y) else y) (if is_vertex et then (if String.eqb name "z" then length pre else z) else z) ln le)) ->
        match X with Some (Some p) => zPLYFReadHeader (map property_line ps ++ more) p | Some None => Some None | None => None end =
        zPLYFReadHeader more (PLY (Some f) (es ++ [PE et n ((pre ++ [dtf t]) ++ map prp_of ps)])
          (if is_vertex et then upd "x" (Datatypes.S (length pre)) ps (if String.eqb name "x" then length pre else x) else x)
          (if is_vertex et then upd "y" (Datatypes.S (length pre)) ps (if String.eqb name "y" then length pre else y) else y)
          (if is_vertex et then upd "z" (Datatypes.S (length pre)) ps (if String.eqb name "z" then length pre else z) else z)
          (updl fst ps ln) (updl snd ps le))).
      { intros X ->. rewrite G. destruct (is_vertex et); reflexivity. }
      match goal with |- match ?X with _ => _ end = _ => rewrite <- (GV X) end.
      * match goal with |- match ?X with _ => _ end = _ => destruct X as [[q|]|]; reflexivity end.
      * destruct (dtf t) eqn:D; try congruence; destruct et; cbn [is_vertex]; try reflexivity;
          destruct (String.eqb_spec name "x"); try (subst name; reflexivity); destruct (String.eqb_spec name "y"); try (subst name; reflexivity); destruct (String.eqb_spec name "z"); reflexivity.
    + cbn [zPLYFReadHeader nextWord].
      change (hword_is (HW "property") "end_header") with false. change (hword_is (HW "property") "format") with false.
      change (hword_is (HW "property") "element") with false. change (hword_is (HW "property") "property") with true. cbv iota.
      unfold zPLYFReadProperty. cbn [p_elem p_format p_x p_y p_z p_listnum p_listelem nextWord]. rewrite last_elem.
      change (zPLYPrpFind (HW "list")) with (Some ZLIST). cbv iota zeta. cbn [pe_type pe_num pe_prp].
      change (hword_is (HW "vertex_indices") "vertex_indices") with true. cbv iota. rewrite NL. cbn [upd updl prp_of fst snd].
      cbn [prp_of] in LL. rewrite IH; [rewrite LL; reflexivity|exact K'|rewrite LL; lia].
Qed.

Definition pe_of (et : zPLYElemType) (e : element) : zPLYElement := PE et (Z.of_nat (length (el_rows e))) (map prp_of (el_props e)).
Definition etf (e : element) : zPLYElemType := match elemTypeFind (HW (el_name e)) with Some t => t | None => ZEDGE end.
Definition named (e : element) : Prop := elemTypeFind (HW (el_name e)) = Some (etf e).
Definition updv (name : string) (es : list element) (old : nat) : nat :=
  fold_left (fun a e => if is_vertex (etf e) then upd name 0 (el_props e) a else a) es old.
Definition updls (sel : string * string -> string) (es : list element) (old : option zPLYDATA) : option zPLYDATA :=
  fold_left (fun a e => updl sel (el_props e) a) es old.

Lemma read_elements es : forall f pes x y z ln le more, (forall e, List.In e es -> named e /\ in_limits e) -> (length pes + length es <= 5)%nat ->
  zPLYFReadHeader (flat_map element_lines es ++ more) (PLY (Some f) pes x y z ln le) =
  zPLYFReadHeader more (PLY (Some f) (pes ++ map (fun e => pe_of (etf e) e) es) (updv "x" es x) (updv "y" es y) (updv "z" es z) (updls fst es ln) (updls snd es le)).
Proof.
  induction es as [|e es IH]; intros f pes x y z ln le more K L.
  - cbn [flat_map map app]. rewrite app_nil_r. reflexivity.
  - cbn [length] in L. destruct (K e (or_introl eq_refl)) as [N [P1 P2]]. cbn [flat_map element_lines app].
    cbn [zPLYFReadHeader nextWord].
    change (hword_is (HW "element") "end_header") with false. change (hword_is (HW "element") "format") with false.
    change (hword_is (HW "element") "element") with true. cbv iota.
    unfold zPLYFReadElement. cbn [p_elem p_format p_x p_y p_z p_listnum p_listelem nextWord].
    destruct (Nat.leb_spec 5 (length pes)) as [B|_]; [lia|]. cbv iota. rewrite N. cbv iota.
    rewrite <- app_assoc. rewrite read_props; [|exact P2|cbn [length]; exact P1]. cbn [length app].
    rewrite IH; [|intros e' E'; apply K; right; exact E'|rewrite app_length; cbn [length]; lia].
    rewrite <- app_assoc. cbn [map app]. unfold updv, updls. cbn [fold_left]. reflexivity.
Qed.

Lemma read_header f es lines : header f es lines -> (forall e, List.In e es -> named e /\ in_limits e) -> (length es <= 5)%nat ->
  exists more, lines = [HW "ply"] :: more /\
  zPLYFReadHeader more zPLYInit = Some (Some (PLY (Some (fmt f)) (map (fun e => pe_of (etf e) e) es) (updv "x" es 0) (updv "y" es 0) (updv "z" es 0) (updls fst es None) (updls snd es None))).
Proof.
  intros (more & E & F) K L. exists more. split; [exact E|]. rewrite header_filter, F. cbn [app].
  cbn [zPLYFReadHeader nextWord].
  change (hword_is (HW "format") "end_header") with false. change (hword_is (HW "format") "format") with true. cbv iota.
  assert (Q : zPLYFReadFormat zPLYInit [HW (format_name f); HW "1.0"] = Some (PLY (Some (fmt f)) [] 0 0 0 None None)) by (destruct f; reflexivity).
  rewrite Q. rewrite read_elements; [|exact K|cbn [length]; exact L]. reflexivity.
Qed.

(** ** rows *)
Definition numbers (ps : list property) : Prop := forall p, List.In p ps -> exists t n, p = Number t n.
Lemma numbers_tail p ps : numbers (p :: ps) -> numbers ps.
Proof. intros H q Q. apply H. right. exact Q. Qed.

(** the number that a position gets *)
Definition pick (i j : nat) (cs : list cell) (old : R) : R :=
  if Nat.ltb i j then old else match nth_error cs (i - j) with Some (CNumber x) => x | _ => old end.
Lemma pick_cons i j x cs old : pick i (Datatypes.S j) cs (if Nat.eqb j i then x else old) = pick i j (CNumber x :: cs) old.
Proof.
  unfold pick. destruct (Nat.eqb_spec j i) as [->|N].
  - rewrite Nat.ltb_irrefl, Nat.sub_diag. destruct (Nat.ltb_spec i (Datatypes.S i)); [reflexivity|lia].
  - destruct (Nat.ltb_spec i j), (Nat.ltb_spec i (Datatypes.S j)); try lia; [reflexivity|].
    replace (i - j)%nat with (Datatypes.S (i - Datatypes.S j)) by lia. reflexivity.
Qed.
Lemma vert_row f p ps cs ds : row c f ps cs ds -> numbers ps -> forall j v rest,
  readVertRow c (fmt f) p (map prp_of ps) j v (ds ++ rest) = Some (Some (V3 (pick (p_x p) j cs (vx v)) (pick (p_y p) j cs (vy v)) (pick (p_z p) j cs (vz v)), rest)).
Proof.
  induction 1 as [|t k n x ds ps cs more K D RR IH|tn kn t k l dn dls ps cs more K1 K2 D1 D2 RR IH]; intros NM j v rest.
  - cbn [map readVertRow app]. unfold pick. destruct (p_x p - j)%nat, (p_y p - j)%nat, (p_z p - j)%nat; cbn [nth_error];
      destruct (Nat.ltb (p_x p) j), (Nat.ltb (p_y p) j), (Nat.ltb (p_z p) j); destruct v; reflexivity.
  - destruct (find_kind t k K) as [A B]. cbn [map prp_of readVertRow]. rewrite <- app_assoc.
    assert (RD := read_double_ok f k x ds (dtf t) (more ++ rest) D B).
    destruct (dtf t) eqn:T; try (cbn in B; discriminate B); rewrite RD; rewrite (IH (numbers_tail _ _ NM)); unfold zPH3DSetPLYVert; cbn [vx vy vz]; rewrite !pick_cons; reflexivity.
  - destruct (NM _ (or_introl eq_refl)) as (t' & n & E). discriminate E.
Qed.
Lemma rows_app ps rs ds f : rows c f ps rs ds -> forall r d, row c f ps r d -> rows c f ps (r :: rs) (d ++ ds).
Proof. intros H r d R. constructor; assumption. Qed.

Lemma vert_rows f p ps junk rs ds : rows c f ps rs ds -> numbers ps -> forall rest,
  readVertRows (length rs) c (fmt f) p (map prp_of ps) junk (ds ++ rest) =
  Some (Some (map (fun r => V3 (pick (p_x p) 0 r (vx junk)) (pick (p_y p) 0 r (vy junk)) (pick (p_z p) 0 r (vz junk))) rs, rest)).
Proof.
  induction 1 as [|r rs d ds R RS IH]; intros NM rest; cbn [length readVertRows map app]; [reflexivity|].
  rewrite <- app_assoc, (vert_row _ _ _ _ _ R NM), (IH NM). reflexivity.
Qed.
Lemma elem_row f ps cs ds : row c f ps cs ds -> numbers ps -> forall rest, elemRow c (fmt f) (map prp_of ps) (ds ++ rest) = Some (Some rest).
Proof.
  induction 1 as [|t k n x ds ps cs more K D RR IH|tn kn t k l dn dls ps cs more K1 K2 D1 D2 RR IH]; intros NM rest.
  - reflexivity.
  - destruct (find_kind t k K) as [A B]. cbn [map prp_of elemRow]. rewrite <- app_assoc.
    assert (RD := read_double_ok f k x ds (dtf t) (more ++ rest) D B).
    destruct (dtf t) eqn:T; try (cbn in B; discriminate B); rewrite RD; apply (IH (numbers_tail _ _ NM)).
  - destruct (NM _ (or_introl eq_refl)) as (t' & n & E). discriminate E.
Qed.
Lemma elem_rows f ps rs ds : rows c f ps rs ds -> numbers ps -> forall rest, zPH3DFReadPLYElem (length rs) c (fmt f) (map prp_of ps) (ds ++ rest) = Some (Some rest).
Proof.
  induction 1 as [|r rs d ds R RS IH]; intros NM rest; cbn [length zPH3DFReadPLYElem app]; [reflexivity|].
  rewrite <- app_assoc, (elem_row _ _ _ _ R NM). apply (IH NM).
Qed.
Lemma skip_ints f k d l dls : Forall2 (fun i d => denotes c f k (IZR (Z.of_nat i)) d) l dls -> kind_of d = Some k -> forall rest,
  skipInts (length l) c (fmt f) d (concat dls ++ rest) = Some rest.
Proof.
  induction 1 as [|i di l dls D DS IH]; intros K rest; cbn [length skipInts concat app]; [reflexivity|].
  rewrite <- app_assoc, (read_int_ok f k i di d _ D K). apply (IH K).
Qed.

(** the types of lists as the header leaves them *)
Definition list_types (p : zPLY) (ps : list property) : Prop :=
  forall tn t, List.In (Indices tn t) ps -> p_listnum p = zPLYPrpFind (HW tn) /\ p_listelem p = zPLYPrpFind (HW t).
Lemma list_types_tail p q ps : list_types p (q :: ps) -> list_types p ps.
Proof. intros H tn t I. apply H. right. exact I. Qed.

Lemma grid_row f p ps cs ds : row c f ps cs ds -> list_types p ps -> (forall tn t, List.In (Indices tn t) ps -> tn = t) -> forall rest, gridRow c (fmt f) p (map prp_of ps) (ds ++ rest) = Some rest.
Proof.
  induction 1 as [|t k n x ds ps cs more K D RR IH|tn kn t k l dn dls ps cs more K1 K2 D1 D2 RR IH]; intros LT SM rest.
  - reflexivity.
  - destruct (find_kind t k K) as [A B]. cbn [map prp_of gridRow]. rewrite <- app_assoc.
    assert (RD := read_double_ok f k x ds (dtf t) (more ++ rest) D B).
    destruct (dtf t) eqn:T; try (cbn in B; discriminate B); rewrite RD; apply (IH (list_types_tail _ _ _ LT)); intros; eapply SM; right; eauto.
  - destruct (find_kind tn kn K1) as [A1 B1]. destruct (find_kind t k K2) as [A2 B2]. destruct (LT tn t (or_introl eq_refl)) as [L1 L2].
    assert (E : tn = t) by (apply (SM tn t); left; reflexivity). subst tn. assert (EK : kn = k) by congruence. subst kn.
    cbn [map prp_of gridRow]. rewrite L1, A1, <- !app_assoc. rewrite (read_int_ok f k (length l) dn (dtf t) _ D1 B1).
    rewrite Nat2Z.id, (skip_ints f k (dtf t) l dls D2 B1). apply (IH (list_types_tail _ _ _ LT)). intros; eapply SM; right; eauto.
Qed.
Lemma grid_rows f p ps rs ds : rows c f ps rs ds -> list_types p ps -> (forall tn t, List.In (Indices tn t) ps -> tn = t) -> forall rest,
  zPH3DFReadPLYRangeGrid (length rs) c (fmt f) p (map prp_of ps) (ds ++ rest) = Some rest.
Proof.
  induction 1 as [|r rs d ds R RS IH]; intros LT SM rest; cbn [length zPH3DFReadPLYRangeGrid app]; [reflexivity|].
  rewrite <- app_assoc, (grid_row _ _ _ _ _ R LT SM). apply (IH LT SM).
Qed.

Definition tri_count (ls : list (list nat)) : Z := Z.of_nat (length (flat_map on_first_side ls)).
Lemma side_count l : Z.max (Z.of_nat (length l) - 2) 0 = Z.of_nat (length (on_first_side l)).
Proof. destruct l as [|a [|b r]]; cbn [length on_first_side]; rewrite ?map_length; lia. Qed.
Lemma count_row f p ps cs ds : row c f ps cs ds -> list_types p ps -> forall nf rest,
  countRow c (fmt f) p (map prp_of ps) (ds ++ rest) nf = Some ((nf + tri_count (polygons_of_row cs))%Z, rest).
Proof.
  induction 1 as [|t k n x ds ps cs more K D RR IH|tn kn t k l dn dls ps cs more K1 K2 D1 D2 RR IH]; intros LT nf rest.
  - cbn. rewrite Z.add_0_r. reflexivity.
  - destruct (find_kind t k K) as [A B]. cbn [map prp_of countRow]. rewrite <- app_assoc.
    assert (RD := read_double_ok f k x ds (dtf t) (more ++ rest) D B).
    destruct (dtf t) eqn:T; try (cbn in B; discriminate B); rewrite RD; apply (IH (list_types_tail _ _ _ LT)).
  - destruct (find_kind tn kn K1) as [A1 B1]. destruct (find_kind t k K2) as [A2 B2]. destruct (LT tn t (or_introl eq_refl)) as [L1 L2].
    cbn [map prp_of countRow]. rewrite L1, A1, L2, A2, <- !app_assoc. rewrite (read_int_ok f kn (length l) dn (dtf tn) _ D1 B1).
    rewrite Nat2Z.id, (skip_ints f k (dtf t) l dls D2 B2), (IH (list_types_tail _ _ _ LT)). f_equal. f_equal.
    rewrite side_count. unfold tri_count. cbn [polygons_of_row flat_map app]. fold (polygons_of_row cs). rewrite app_length. lia.
Qed.
Lemma count_rows f p ps rs ds : rows c f ps rs ds -> list_types p ps -> forall nf rest,
  countRows (length rs) c (fmt f) p (map prp_of ps) (ds ++ rest) nf = Some ((nf + tri_count (flat_map polygons_of_row rs))%Z, rest).
Proof.
  induction 1 as [|r rs d ds R RS IH]; intros LT nf rest; cbn [length countRows app flat_map].
  - cbn. rewrite Z.add_0_r. reflexivity.
  - rewrite <- app_assoc, (count_row _ _ _ _ _ R LT), (IH LT). f_equal. f_equal. unfold tri_count. rewrite flat_map_app, app_length. lia.
Qed.

Definition tri_face (vs : list vec3) (t : nat * nat * nat) : face :=
  let '(i, j, k) := t in FC i j k (tnorm (snd (zTri3DCreate (nth i vs (V3 0 0 0)) (nth j vs (V3 0 0 0)) (nth k vs (V3 0 0 0))))).
Lemma make_face vs i j k : (i < length vs)%nat -> (j < length vs)%nat -> (k < length vs)%nat ->
  makeFace vs (Z.of_nat i) (Z.of_nat j) (Z.of_nat k) = Some (tri_face vs (i, j, k)).
Proof.
  intros A B C. unfold makeFace. destruct (Z.ltb_spec (Z.of_nat i) 0), (Z.ltb_spec (Z.of_nat j) 0), (Z.ltb_spec (Z.of_nat k) 0); try lia. cbn [orb]. rewrite !Nat2Z.id.
  rewrite (nth_error_nth' vs (V3 0 0 0) A), (nth_error_nth' vs (V3 0 0 0) B), (nth_error_nth' vs (V3 0 0 0) C). reflexivity.
Qed.
Lemma make_faces f k d vs a b l dls : Forall2 (fun i d => denotes c f k (IZR (Z.of_nat i)) d) l dls -> kind_of d = Some k ->
  (a < length vs)%nat -> (b < length vs)%nat -> (forall i, List.In i l -> (i < length vs)%nat) -> forall nf fs rest, (Z.of_nat (length fs + length l) <= nf)%Z ->
  makeFaces (length l) c (fmt f) d vs (Z.of_nat a) (Z.of_nat b) (concat dls ++ rest) nf fs = Some (fs ++ map (fun i => tri_face vs (a, b, i)) l, rest).
Proof.
  intros F K A B. induction F as [|i di l dls D DS IH]; intros IN nf fs rest Q; cbn [length makeFaces concat app map]; [rewrite app_nil_r; reflexivity|].
  rewrite <- app_assoc, (read_int_ok f k i di d _ D K), (make_face vs a b i A B (IN i (or_introl eq_refl))). cbn [length] in Q.
  destruct (Z.ltb_spec (Z.of_nat (length fs)) nf) as [_|W]; [|lia].
  rewrite IH; [rewrite <- app_assoc; reflexivity|intros; apply IN; right; assumption|rewrite app_length; cbn [length]; lia].
Qed.
Definition in_reach (vs : list vec3) (ls : list (list nat)) : Prop := forall l i, List.In l ls -> List.In i l -> (i < length vs)%nat.
Lemma face_row f p vs ps cs ds : row c f ps cs ds -> list_types p ps -> in_reach vs (polygons_of_row cs) -> forall nf fs rest,
  (Z.of_nat (length fs) + tri_count (polygons_of_row cs) <= nf)%Z ->
  faceRow c (fmt f) p (map prp_of ps) vs (ds ++ rest) nf fs = Some (fs ++ map (tri_face vs) (flat_map on_first_side (polygons_of_row cs)), rest).
Proof.
  induction 1 as [|t k n x ds ps cs more K D RR IH|tn kn t k l dn dls ps cs more K1 K2 D1 D2 RR IH]; intros LT IR nf fs rest Q.
  - cbn. rewrite app_nil_r. reflexivity.
  - destruct (find_kind t k K) as [A B]. cbn [map prp_of faceRow]. rewrite <- app_assoc.
    assert (RD := read_double_ok f k x ds (dtf t) (more ++ rest) D B).
    destruct (dtf t) eqn:T; try (cbn in B; discriminate B); rewrite RD; apply (IH (list_types_tail _ _ _ LT)); assumption.
  - destruct (find_kind tn kn K1) as [A1 B1]. destruct (find_kind t k K2) as [A2 B2]. destruct (LT tn t (or_introl eq_refl)) as [L1 L2].
    change (polygons_of_row (CIndices l :: cs)) with (l :: polygons_of_row cs) in *.
    assert (IR' : in_reach vs (polygons_of_row cs)) by (intros l' i I J; eapply IR; [right; exact I|exact J]).
    assert (IL : forall i, List.In i l -> (i < length vs)%nat) by (intros i I; eapply IR; [left; reflexivity|exact I]).
    assert (T0 : tri_count (l :: polygons_of_row cs) = (Z.of_nat (length (on_first_side l)) + tri_count (polygons_of_row cs))%Z) by (unfold tri_count; cbn [flat_map]; rewrite app_length; lia).
    rewrite T0 in Q.
    cbn [map prp_of faceRow]. rewrite L1, A1, L2, A2, <- !app_assoc. rewrite (read_int_ok f kn (length l) dn (dtf tn) _ D1 B1).
    destruct l as [|a [|b l]].
    + inversion D2; subst. cbn [length concat app]. change (Z.of_nat 0 - 1 <? 0)%Z with true. cbv iota.
      cbn [on_first_side length] in Q. rewrite (IH (list_types_tail _ _ _ LT) IR' nf fs rest); [reflexivity|lia].
    + inversion D2 as [|? da ? dls' DA DR]; subst. inversion DR; subst. cbn [length concat app]. rewrite app_nil_r.
      change (Z.of_nat 1 - 1 <? 0)%Z with false. cbv iota. rewrite (read_int_ok f k a da (dtf t) _ DA B2).
      change (Z.of_nat 1 - 2 <? 0)%Z with true. cbv iota.
      cbn [on_first_side length] in Q. rewrite (IH (list_types_tail _ _ _ LT) IR' nf fs rest); [reflexivity|lia].
    + inversion D2 as [|? da ? dls' DA DR]; subst. inversion DR as [|? db ? dls'' DB' DR2]; subst. cbn [concat]. rewrite <- !app_assoc.
      destruct (Z.ltb_spec (Z.of_nat (length (a :: b :: l)) - 1) 0) as [W|_]; [cbn [length] in W; lia|].
      rewrite (read_int_ok f k a da (dtf t) _ DA B2).
      destruct (Z.ltb_spec (Z.of_nat (length (a :: b :: l)) - 2) 0) as [W|_]; [cbn [length] in W; lia|].
      rewrite (read_int_ok f k b db (dtf t) _ DB' B2).
      replace (Z.to_nat (Z.of_nat (length (a :: b :: l)) - 2)) with (length l) by (cbn [length]; lia).
      cbn [on_first_side] in Q. rewrite map_length in Q. assert (NN : (0 <= tri_count (polygons_of_row cs))%Z) by (unfold tri_count; lia).
      rewrite (make_faces f k (dtf t) vs a b l dls''); [|exact DR2|exact B2|apply IL; left; reflexivity|apply IL; right; left; reflexivity|intros i I; apply IL; right; right; exact I|lia].
      rewrite (IH (list_types_tail _ _ _ LT) IR').
      * cbn [flat_map on_first_side]. rewrite map_app, map_map, <- app_assoc. reflexivity.
      * rewrite app_length, map_length. lia.
Qed.
Lemma face_rows f p vs ps rs ds : rows c f ps rs ds -> list_types p ps -> in_reach vs (flat_map polygons_of_row rs) -> forall nf fs rest,
  (Z.of_nat (length fs) + tri_count (flat_map polygons_of_row rs) <= nf)%Z ->
  faceRows (length rs) c (fmt f) p (map prp_of ps) vs (ds ++ rest) nf fs = Some (fs ++ map (tri_face vs) (flat_map on_first_side (flat_map polygons_of_row rs)), rest).
Proof.
  induction 1 as [|r rs d ds R RS IH]; intros LT IR nf fs rest Q; cbn [length faceRows app flat_map].
  - cbn. rewrite app_nil_r. reflexivity.
  - cbn [flat_map] in Q, IR.
    assert (T0 : tri_count (polygons_of_row r ++ flat_map polygons_of_row rs) = (tri_count (polygons_of_row r) + tri_count (flat_map polygons_of_row rs))%Z) by (unfold tri_count; rewrite flat_map_app, app_length; lia).
    rewrite T0 in Q. assert (NN : (0 <= tri_count (flat_map polygons_of_row rs))%Z) by (unfold tri_count; lia).
    rewrite <- app_assoc, (face_row _ _ vs _ _ _ R LT); [|intros l i I J; eapply IR; [apply in_or_app; left; exact I|exact J]|lia].
    rewrite (IH LT); [rewrite flat_map_app, map_app, <- app_assoc; reflexivity|intros l i I J; eapply IR; [apply in_or_app; right; exact I|exact J]|].
    rewrite app_length, map_length. unfold tri_count in *. lia.
Qed.
Lemma read_faces f p vs e ds : rows c f (el_props e) (el_rows e) ds -> list_types p (el_props e) -> in_reach vs (polygons e) -> forall rest,
  zPH3DFReadPLYFace c (fmt f) p (pe_of ZFACE e) (PH vs []) (ds ++ rest) = Some (Some (PH vs (map (tri_face vs) (flat_map on_first_side (polygons e))), rest)).
Proof.
  intros R LT IR rest. unfold zPH3DFReadPLYFace, pe_of. cbn [pe_num pe_prp pverts pfaces]. rewrite Nat2Z.id.
  rewrite (count_rows _ _ _ _ _ R LT). rewrite (face_rows _ _ vs _ _ _ R LT IR); [|cbn [length]; unfold polygons; lia].
  rewrite Z.add_0_l. unfold polygons, tri_count. cbn [app].
  destruct (flat_map on_first_side (flat_map polygons_of_row (el_rows e))) as [|t ts]; [reflexivity|].
  destruct (Z.ltb_spec 0 (Z.of_nat (length (t :: ts)))) as [_|W]; [reflexivity|cbn [length] in W; lia].
Qed.
End Reading.

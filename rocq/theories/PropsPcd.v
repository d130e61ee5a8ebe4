(** C84: PCD files. *)
From Coq Require Import Ascii String ZArith.
From Verif Require Import Base Spec SpecPcd ModelPcd FactsPcd FactsPcd2.
From Coq Require Import List.
From Coq Require Lra Lia.
Import ListNotations.
Open Scope list_scope.
Open Scope R_scope.

(** points written as text are read back: [pr] is what remains of a number written with ten digits *)
Theorem C84_text_round_trip : forall fuel rnd cd lzf pr txt pts f, zVec3DDataFWritePCD pr txt cd "ascii" pts = (true, f) ->
  zVec3DDataFReadPCD fuel rnd cd lzf f = PDone (map (fun v => V3 (pr (vx v)) (pr (vy v)) (pr (vz v))) pts).
Proof. exact pcd_text_round_trip. Qed.
Print Assumptions C84_text_round_trip.
(** points of double precision written as bytes are read back without any change *)
Theorem C84_binary_round_trip : forall fuel rnd cd lzf pr txt pts f, Forall (kept3 cd) pts -> zVec3DDataFWritePCD pr txt cd "binary" pts = (true, f) -> (length pts < fuel)%nat ->
  zVec3DDataFReadPCD fuel rnd cd lzf f = PDone pts.
Proof. exact pcd_binary_round_trip. Qed.
Print Assumptions C84_binary_round_trip.
(** any text file: columns in any order, of any type, among others; points with a number that is not finite are left out, the others are seen from the viewpoint; rows beyond the announced number do not count *)
Theorem C84_text : forall fuel rnd cd lzf cols w h p q f rows, cols <> [] -> Forall admissible cols -> NoDup (map c_name cols) -> zTOL < sqrt (qnorm2 q) ->
  pcd_header cols w h p q DText (p_head f) -> Forall2 (text_row rnd cols) (p_lines f) rows ->
  zVec3DDataFReadPCD fuel rnd cd lzf f = PDone (firstn (w * h) (cloud cols p q rows)) /\
  (length rows = w * h -> zVec3DDataFReadPCD fuel rnd cd lzf f = PDone (cloud cols p q rows))%nat.
Proof. exact pcd_text. Qed.
Print Assumptions C84_text.
(** any binary file: the same, but there is a point more at the end, which only counts if there is room for it *)
Theorem C84_binary : forall fuel rnd cd lzf cols w h p q f bss rows, cols <> [] -> Forall admissible cols -> NoDup (map c_name cols) -> zTOL < sqrt (qnorm2 q) ->
  pcd_header cols w h p q DBinary (p_head f) -> p_bytes f = concat bss -> Forall2 (byte_row cd cols) bss rows -> (length rows < fuel)%nat ->
  zVec3DDataFReadPCD fuel rnd cd lzf f = PDone (firstn (w * h) (cloud cols p q rows ++ [p])) /\
  (length (cloud cols p q rows) = w * h -> zVec3DDataFReadPCD fuel rnd cd lzf f = PDone (cloud cols p q rows))%nat.
Proof. exact pcd_binary. Qed.
Print Assumptions C84_binary.
(** so a binary file with a point that is not finite gets the place of the viewpoint as an additional point *)
Theorem C84_binary_refuted : forall fuel rnd cd lzf cols w h p q f bss rows, cols <> [] -> Forall admissible cols -> NoDup (map c_name cols) -> zTOL < sqrt (qnorm2 q) ->
  pcd_header cols w h p q DBinary (p_head f) -> p_bytes f = concat bss -> Forall2 (byte_row cd cols) bss rows -> (length rows < fuel)%nat ->
  length rows = (w * h)%nat -> (exists xs, List.In xs rows /\ row_point cols xs = None) ->
  zVec3DDataFReadPCD fuel rnd cd lzf f = PDone (cloud cols p q rows ++ [p]).
Proof. exact pcd_binary_refuted. Qed.
Print Assumptions C84_binary_refuted.
(** an empty line among the rows of a text adds the place of the viewpoint *)
Theorem C84_blank_refuted : forall fuel rnd cd lzf cols w h p q f l1 l2 rows1 rows2, cols <> [] -> Forall admissible cols -> NoDup (map c_name cols) -> zTOL < sqrt (qnorm2 q) ->
  pcd_header cols w h p q DText (p_head f) -> p_lines f = l1 ++ [[]] ++ l2 -> Forall2 (text_row rnd cols) l1 rows1 -> Forall2 (text_row rnd cols) l2 rows2 -> (length l1 + length l2 < w * h)%nat ->
  zVec3DDataFReadPCD fuel rnd cd lzf f = PDone (cloud cols p q rows1 ++ [p] ++ cloud cols p q rows2).
Proof. exact pcd_blank_refuted. Qed.
Print Assumptions C84_blank_refuted.
(** with a quaternion of zero all points fall on the place of the viewpoint *)
Theorem C84_zero_refuted : forall fuel rnd cd lzf cols w h p f rows, cols <> [] -> Forall admissible cols -> NoDup (map c_name cols) ->
  pcd_header cols w h p (Q4 0 0 0 0) DText (p_head f) -> Forall2 (text_row rnd cols) (p_lines f) rows ->
  exists pts, zVec3DDataFReadPCD fuel rnd cd lzf f = PDone pts /\ forall v, List.In v pts -> v = p.
Proof. exact pcd_zero_refuted. Qed.
Print Assumptions C84_zero_refuted.
(** a compressed file is read without failure and gives no point at all *)
Theorem C84_compressed_refuted : forall fuel rnd cd lzf cols w h p q f packed rest out, cols <> [] -> Forall admissible cols ->
  pcd_header cols w h p q DCompressed (p_head f) -> (0 < Z.of_nat (length packed) < 2 ^ 32)%Z -> (0 < Z.of_nat (length out) < 2 ^ 32)%Z ->
  p_bytes f = low_first 4 (Z.of_nat (length packed)) ++ low_first 4 (Z.of_nat (length out)) ++ packed ++ rest -> lzf packed (length out) = Some out ->
  zVec3DDataFReadPCD fuel rnd cd lzf f = PDone [].
Proof. exact pcd_compressed_refuted. Qed.
Print Assumptions C84_compressed_refuted.
(** an unknown key is undefined behaviour *)
Theorem C84_unknown : forall fuel rnd cd lzf f n t ws ls, p_head f = repeat PComment n ++ PWords (t :: ws) :: ls ->
  ~ List.In (w_text t) ["VERSION"; "FIELDS"; "SIZE"; "TYPE"; "COUNT"; "WIDTH"; "HEIGHT"; "VIEWPOINT"; "POINTS"; "DATA"]%string ->
  zVec3DDataFReadPCD fuel rnd cd lzf f = PUndef.
Proof. exact pcd_unknown. Qed.
Print Assumptions C84_unknown.
(** so is a key that stands behind a later one *)
Theorem C84_order : forall fuel rnd cd lzf f n a wd m t ws ls, p_head f = repeat PComment n ++ PWords [a; wd] :: repeat PComment m ++ PWords (t :: ws) :: ls ->
  w_text a = "WIDTH"%string -> List.In (w_text t) ["VERSION"; "FIELDS"; "SIZE"; "TYPE"; "COUNT"]%string ->
  zVec3DDataFReadPCD fuel rnd cd lzf f = PUndef.
Proof. exact pcd_order. Qed.
Print Assumptions C84_order.
(** and a header without types *)
Theorem C84_untyped : forall fuel rnd cd lzf f a ws b zs wd wn hd hn dt dn, p_head f = [PWords (a :: ws); PWords (b :: zs); PWords [wd; wn]; PWords [hd; hn]; PWords [dt; dn]] ->
  w_text a = "FIELDS"%string -> List.In "x"%string (map w_text ws) -> w_text b = "SIZE"%string -> Forall (fun w => w_text w = "4"%string) zs -> length zs = length ws ->
  w_text wd = "WIDTH"%string -> word_num wn 1 -> w_text hd = "HEIGHT"%string -> word_num hn 1 -> w_text dt = "DATA"%string -> List.In (w_text dn) ["ascii"; "binary"; "binary_compressed"]%string ->
  zVec3DDataFReadPCD fuel rnd cd lzf f = PUndef.
Proof. exact pcd_untyped. Qed.
Print Assumptions C84_untyped.
(** a header without columns: a binary file is read for ever *)
Theorem C84_forever : forall fuel rnd cd lzf f wd wn hd hn dt dn w h, p_head f = [PWords [wd; wn]; PWords [hd; hn]; PWords [dt; dn]] ->
  w_text wd = "WIDTH"%string -> word_num wn (Z.of_nat w) -> w_text hd = "HEIGHT"%string -> word_num hn (Z.of_nat h) -> w_text dt = "DATA"%string -> w_text dn = "binary"%string ->
  zVec3DDataFReadPCD fuel rnd cd lzf f = PForever.
Proof. exact pcd_forever. Qed.
Print Assumptions C84_forever.
(** a file with a colour, whole coordinates and a viewpoint: hypotheses are met *)
Definition ex_cols : list column := [Column "rgb" CNat 4; Column "y" CInt 2; Column "x" CReal 4; Column "z" CReal 8].
Definition ex_head (dt : string) : list pline :=
  [PComment; PWords [tw "FIELDS"; tw "rgb"; tw "y"; tw "x"; tw "z"]; PWords [tw "SIZE"; tw "4"; tw "2"; tw "4"; tw "8"]; PWords [tw "TYPE"; tw "U"; tw "I"; tw "F"; tw "F"]; PComment;
   PWords [tw "WIDTH"; tw "2"]; PWords [tw "HEIGHT"; tw "1"]; PWords [tw "VIEWPOINT"; tn "1" 1; tn "2" 2; tn "3" 3; tn "0" 0; tn "0" 0; tn "0" 0; tn "2" 2]; PWords [tw "DATA"; tw dt]].
Example C84_ex_header : forall f, pcd_header ex_cols 2 1 (V3 1 2 3) (Q4 0 0 0 2) f (ex_head (data_name f)).
Proof.
  intros f. assert (N : forall d, (d < 10)%nat -> word_num (tw (digits_text [d])) (Z.of_nat d)) by (intros d H; apply num1, H).
  unfold pcd_header, ex_head. cbn [app filter not_comment]. exists []. do 3 eexists. exists []. do 2 eexists. eexists [_], []. eexists. split; [reflexivity|].
  split; [left; reflexivity|]. split; [do 2 eexists; split; [reflexivity|]; split; [reflexivity|repeat constructor]|].
  split; [do 2 eexists; split; [reflexivity|]; split; [reflexivity|]|].
  { constructor; [apply (N 4%nat); Lia.lia|]. constructor; [apply (N 2%nat); Lia.lia|]. constructor; [apply (N 4%nat); Lia.lia|]. constructor; [apply (N 8%nat); Lia.lia|constructor]. }
  split; [do 2 eexists; split; [reflexivity|]; split; [reflexivity|repeat constructor]|]. split; [left; reflexivity|].
  split; [do 2 eexists; split; [reflexivity|]; split; [reflexivity|]; eexists; split; [reflexivity|apply (N 2%nat); Lia.lia]|].
  split; [do 2 eexists; split; [reflexivity|]; split; [reflexivity|]; eexists; split; [reflexivity|apply (N 1%nat); Lia.lia]|].
  split; [right; eexists; split; [reflexivity|]; do 2 eexists; split; [reflexivity|]; split; reflexivity|]. split; [left; reflexivity|].
  do 2 eexists. split; [reflexivity|]. split; [reflexivity|]. eexists. split; reflexivity.
Qed.
Example C84_ex_columns : ex_cols <> [] /\ Forall admissible ex_cols /\ NoDup (map c_name ex_cols) /\ zTOL < sqrt (qnorm2 (Q4 0 0 0 2)).
Proof.
  split; [discriminate|]. split; [|split].
  - constructor; [split; [cbn; auto|discriminate]|]. constructor; [split; [cbn; auto|discriminate]|]. constructor; [split; [cbn; auto|auto]|]. constructor; [split; [cbn; auto|auto]|constructor].
  - cbn [map ex_cols c_name]. repeat (constructor; [intros H; repeat (destruct H as [H|H]; [discriminate H|]); exact H|]). constructor.
  - unfold qnorm2. cbn [qw qx qy qz]. replace (0 * 0 + 0 * 0 + 0 * 0 + 2 * 2) with (2 * 2) by ring. rewrite sqrt_square by Lra.lra. assert (H := zTOL_small). Lra.lra.
Qed.
(** a row of text with a negative whole number, one that is not finite, and what they denote *)
Example C84_ex_rows : forall rnd,
  Forall2 (text_row rnd ex_cols) [[tw "?"; tw "-5"; tn "0.1" (1/10); tn "7" 7]; [tw "?"; tw "5"; PW "nan" None; tn "7" 7]]
    [[Some 0; Some (IZR (-5)); Some (rnd (1/10)); Some 7]; [Some 0; Some (IZR 5); None; Some 7]] /\
  cloud ex_cols (V3 1 2 3) (Q4 0 0 0 2) [[Some 0; Some (IZR (-5)); Some (rnd (1/10)); Some 7]; [Some 0; Some (IZR 5); None; Some 7]] = [V3 (1 - rnd (1/10)) 7 10].
Proof.
  intros rnd. split.
  - assert (M : numeral "-5" (-5)) by (apply (NU_minus [5%nat]); split; [discriminate|constructor; [Lia.lia|constructor]]). assert (P : numeral "5" 5) by (apply (num1 5); Lia.lia).
    constructor; [|constructor; [|constructor]]; unfold ex_cols.
    + constructor; [intros H; exfalso; repeat (destruct H as [H|H]; [discriminate H|]); exact H|]. constructor; [intros _; apply CT_whole; [exact M|cbn; Lia.lia]|].
      constructor; [intros _; apply (CT_single rnd (Column "x" CReal 4) (tn "0.1" (1/10))); reflexivity|]. constructor; [intros _; apply (CT_double rnd (Column "z" CReal 8) (tn "7" 7)); reflexivity|constructor].
    + constructor; [intros H; exfalso; repeat (destruct H as [H|H]; [discriminate H|]); exact H|]. constructor; [intros _; apply CT_whole; [exact P|cbn; Lia.lia]|].
      constructor; [intros _; apply (CT_single rnd (Column "x" CReal 4) (PW "nan" None)); reflexivity|]. constructor; [intros _; apply (CT_double rnd (Column "z" CReal 8) (tn "7" 7)); reflexivity|constructor].
  - unfold cloud. cbn [flat_map]. change (row_point ex_cols [Some 0; Some (IZR (-5)); Some (rnd (1 / 10)); Some 7]) with (Some (V3 (rnd (1/10)) (IZR (-5)) 7)).
    change (row_point ex_cols [Some 0; Some (IZR 5); None; Some 7]) with (@None vec3). cbn [app]. f_equal. unfold seen, qnorm2, qmul, qconj, qvec, vadd, vscale. cbn [vx vy vz qw qx qy qz]. apply vec3_ext; cbn [vx vy vz]; field.
Qed.
(** two bytes of a negative whole number *)
Example C84_ex_bytes : forall cd, cell_bytes cd (Column "y" CInt 2) [251; 255]%Z (Some (IZR (-5))).
Proof. intros cd. apply (CB_whole cd (Column "y" CInt 2) (-5)). cbn. Lia.lia. Qed.
(** a code that keeps a point *)
Example C84_ex_kept : kept3 (PCodes (fun _ => None) (fun bs => match bs with z :: _ => Some (IZR z) | [] => None end) (fun x => [Int_part x; 0; 0; 0; 0; 0; 0; 0]%Z)) (V3 (IZR 1) (IZR (-2)) (IZR 3)).
Proof.
  assert (I : forall z, Int_part (IZR z) = z) by (intros z; unfold Int_part; assert (U : (z + 1)%Z = up (IZR z)) by (apply tech_up; rewrite plus_IZR; Lra.lra); rewrite <- U; Lia.lia).
  repeat split; cbn [bytes_of double8 vx vy vz]; rewrite I; reflexivity.
Qed.

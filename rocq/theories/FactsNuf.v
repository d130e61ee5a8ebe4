(** Proofs about files of spline surfaces. *)
From Coq Require Import Ascii String.
From Verif Require Import Base SpecNurbs SpecNuf ModelZtk ModelNurbs ModelNuf.
From Coq Require Import List ZArith Lia Lra.
Import ListNotations.
Open Scope R_scope. Open Scope string_scope. Open Scope list_scope.

Section S.
Variable vr : list tok -> option (list R).
Variable mem : Z -> Z -> cell.
Variable sl : Z.
Notation T := (nurbsPrp vr mem).
Definition once {A} (k : string) (seen : list string) (a : rd A) (s : A) : rd A := if Nat.leb 1 (occs k seen) then ROk s else a.
Definition act (seen : list string) (s : nst) (k : string) (v : list tok) : rd nst :=
  if string_dec k "uknot" then once k seen (nkU vr s 0 v) s else if string_dec k "vknot" then once k seen (nkV vr s 0 v) s
  else if string_dec k "size" then once k seen (nkSize mem s 0 v) s else if string_dec k "cp" then nkCP s 0 v else if string_dec k "slice" then once k seen (nkSlice s 0 v) s else ROk s.
Lemma ev_cons seen s k v d : evalKeys T seen s ((k, v) :: d) = match act seen s k v with ROk s1 => evalKeys T (k :: seen) s1 d | r => r end.
Proof.
  unfold act, once. cbn [evalKeys]. unfold nurbsPrp at 1. cbn [find pkey].
  destruct (string_dec k "uknot") as [->|N1]; [cbn [String.eqb Ascii.eqb Bool.eqb pnum pev over]; destruct (Nat.leb 1 _); reflexivity|].
  destruct (string_dec k "vknot") as [->|N2]; [cbn [String.eqb Ascii.eqb Bool.eqb pnum pev over]; destruct (Nat.leb 1 _); reflexivity|].
  destruct (string_dec k "size") as [->|N3]; [cbn [String.eqb Ascii.eqb Bool.eqb pnum pev over]; destruct (Nat.leb 1 _); reflexivity|].
  destruct (string_dec k "cp") as [->|N4]; [reflexivity|].
  destruct (string_dec k "slice") as [->|N5]; [cbn [String.eqb Ascii.eqb Bool.eqb pnum pev over]; destruct (Nat.leb 1 _); reflexivity|].
  rewrite (proj2 (String.eqb_neq "uknot" k)), (proj2 (String.eqb_neq "vknot" k)), (proj2 (String.eqb_neq "size" k)), (proj2 (String.eqb_neq "cp" k)), (proj2 (String.eqb_neq "slice" k)) by congruence. reflexivity.
Qed.
Lemma ev_app d1 : forall seen s d2, evalKeys T seen s (d1 ++ d2) = match evalKeys T seen s d1 with ROk s1 => evalKeys T (rev (map fst d1) ++ seen) s1 d2 | r => r end.
Proof.
  induction d1 as [|[k v] d1 IH]; intros seen s d2; [reflexivity|]. rewrite <- app_comm_cons, !ev_cons. destruct (act seen s k v); [|reflexivity|reflexivity]. rewrite IH. cbn [map fst rev]. rewrite <- app_assoc. reflexivity.
Qed.
Lemma occs_cons k k' seen : occs k (k' :: seen) = if string_dec k' k then Datatypes.S (occs k seen) else occs k seen.
Proof. unfold occs. cbn [filter]. destruct (string_dec k' k) as [->|N]; [rewrite String.eqb_refl; reflexivity|]. rewrite (proj2 (String.eqb_neq k k')) by congruence. reflexivity. Qed.
Lemma occs_in k seen : ~ List.In k seen -> occs k seen = 0%nat.
Proof. induction seen as [|a seen IH]; intros H; [reflexivity|]. rewrite occs_cons. destruct (string_dec a k) as [->|N]; [exfalso; apply H; left; reflexivity|]. apply IH. intros X. apply H. right. exact X. Qed.
Lemma occs_has k seen : List.In k seen -> occs k seen <> 0%nat.
Proof. induction seen as [|a seen IH]; intros H; [destruct H|]. rewrite occs_cons. destruct (string_dec a k) as [->|N]; [lia|]. apply IH. destruct H as [->|H]; [congruence|exact H]. Qed.

Ltac acts H := unfold act, once in H; repeat match type of H with context [string_dec ?k ?l] => destruct (string_dec k l) as [->|?] end; try match type of H with context [Nat.leb 1 ?n] => let Q := fresh "LB" in destruct (Nat.leb 1 n) eqn:Q end;
  unfold nkU, nkV, nkSize, nkCP, nkSlice in H; repeat match type of H with context [let '(_, _) := ?e in _] => destruct e eqn:? | context [match vr ?v with _ => _ end] => destruct (vr v) eqn:? | context [if ?b then _ else _] => destruct b eqn:? | context [match zVec3DFromZTK ?v with _ => _ end] => destruct (zVec3DFromZTK v) as [[? ?]|] eqn:? end;
  try discriminate; injection H as <-; cbn [nsk0 nsk1 nsn0 nsn1 nsnet nss0 nss1].
(** ** One key and what it sets *)
Section Lens.
Context {A : Type}.
Variables (K : string) (g : nst -> A) (P : list tok -> A -> Prop).
Hypothesis keep : forall seen s k v s1, act seen s k v = ROk s1 -> k <> K \/ occs K seen <> 0%nat -> g s1 = g s.
Hypothesis sets : forall seen s v s1, act seen s K v = ROk s1 -> occs K seen = 0%nat -> P v (g s1).
Lemma lens_keep d : forall seen s s', evalKeys T seen s d = ROk s' -> ~ List.In K (map fst d) \/ occs K seen <> 0%nat -> g s' = g s.
Proof.
  induction d as [|[k v] d IH]; intros seen s s' E H; [cbn in E; injection E as <-; reflexivity|]. rewrite ev_cons in E. destruct (act seen s k v) as [s1|?|] eqn:Q; try discriminate.
  rewrite (IH _ _ _ E).
  - apply (keep _ _ _ _ _ Q). destruct H as [H|H]; [left; intros ->; apply H; left; reflexivity|right; exact H].
  - destruct H as [H|H]; [left; intros X; apply H; right; exact X|right]. rewrite occs_cons. destruct (string_dec k K); lia.
Qed.
Lemma lens_sets d1 : forall seen s s' v d2, evalKeys T seen s (d1 ++ (K, v) :: d2) = ROk s' -> ~ List.In K (map fst d1) -> occs K seen = 0%nat -> P v (g s').
Proof.
  induction d1 as [|[k w] d1 IH]; intros seen s s' v d2 E H O; cbn [app] in E; rewrite ev_cons in E.
  - destruct (act seen s K v) as [s1|?|] eqn:Q; try discriminate. rewrite (lens_keep _ _ _ _ E); [apply (sets _ _ _ _ Q O)|]. right. rewrite occs_cons. destruct (string_dec K K); [lia|congruence].
  - destruct (act seen s k w) as [s1|?|] eqn:Q; try discriminate. apply (IH _ _ _ _ _ E); [intros X; apply H; right; exact X|]. rewrite occs_cons. destruct (string_dec k K) as [->|N]; [exfalso; apply H; left; reflexivity|exact O].
Qed.
End Lens.
Lemma leb_occ k seen : occs k seen = 0%nat -> Nat.leb 1 (occs k seen) = false.
Proof. intros ->. reflexivity. Qed.
Lemma leb_some k seen : Nat.leb 1 (occs k seen) = false -> occs k seen = 0%nat.
Proof. intros H. apply Nat.leb_gt in H. lia. Qed.
Ltac keeps := intros seen s k v s1 H C; acts H; try reflexivity; destruct C as [C|C]; try (exfalso; apply C; reflexivity); match goal with Q : Nat.leb 1 _ = false |- _ => apply leb_some in Q; contradiction end.
Ltac setst := intros seen s v s1 H C; acts H; try match goal with Q : Nat.leb 1 _ = true |- _ => rewrite C in Q; discriminate end; try contradiction; try congruence.
Definition lens_k0 := lens_keep "uknot" nsk0.
Lemma k0_keep seen s k v s1 : act seen s k v = ROk s1 -> k <> "uknot" \/ occs "uknot" seen <> 0%nat -> nsk0 s1 = nsk0 s.
Proof. revert seen s k v s1. keeps. Qed.
Lemma k1_keep seen s k v s1 : act seen s k v = ROk s1 -> k <> "vknot" \/ occs "vknot" seen <> 0%nat -> nsk1 s1 = nsk1 s.
Proof. revert seen s k v s1. keeps. Qed.
Definition szof (s : nst) : Z * Z := (nsn0 s, nsn1 s).
Definition slof (s : nst) : Z * Z := (nss0 s, nss1 s).
Lemma sz_keep seen s k v s1 : act seen s k v = ROk s1 -> k <> "size" \/ occs "size" seen <> 0%nat -> szof s1 = szof s.
Proof. revert seen s k v s1. keeps. Qed.
Lemma sl_keep seen s k v s1 : act seen s k v = ROk s1 -> k <> "slice" \/ occs "slice" seen <> 0%nat -> slof s1 = slof s.
Proof. revert seen s k v s1. keeps. Qed.
Lemma k0_sets seen s v s1 : act seen s "uknot" v = ROk s1 -> occs "uknot" seen = 0%nat -> nsk0 s1 = vr v /\ vr v <> None.
Proof. intros H C. change (once "uknot" seen (nkU vr s 0 v) s = ROk s1) in H. unfold once in H. rewrite C in H. cbn [Nat.leb] in H. unfold nkU in H. destruct (vr v); [|discriminate]. injection H as <-. split; [reflexivity|discriminate]. Qed.
Lemma k1_sets seen s v s1 : act seen s "vknot" v = ROk s1 -> occs "vknot" seen = 0%nat -> nsk1 s1 = vr v /\ vr v <> None.
Proof. intros H C. change (once "vknot" seen (nkV vr s 0 v) s = ROk s1) in H. unfold once in H. rewrite C in H. cbn [Nat.leb] in H. unfold nkV in H. destruct (vr v); [|discriminate]. injection H as <-. split; [reflexivity|discriminate]. Qed.
Lemma sl_sets seen s v s1 : act seen s "slice" v = ROk s1 -> occs "slice" seen = 0%nat -> slof s1 = (fst (ZTKInt v), fst (ZTKInt (snd (ZTKInt v)))).
Proof. intros H C. change (once "slice" seen (nkSlice s 0 v) s = ROk s1) in H. unfold once in H. rewrite C in H. cbn [Nat.leb] in H. unfold nkSlice in H. destruct (ZTKInt v) as [a v'] eqn:E1. cbn [fst snd]. destruct (ZTKInt v') as [b v''] eqn:E2. destruct (_ && _)%bool in H; [|discriminate]. injection H as <-. reflexivity. Qed.

(** ** Control points *)
Lemma cp_vec c r : zVec3DFromZTK (skipn 3 (snd (cp_line c)) ++ r) = Some (nc_cp (clc c), if clpar c then [TPar [vx (nc_cp (clc c)); vy (nc_cp (clc c)); vz (nc_cp (clc c))]] ++ r else r).
Proof. destruct c as [i j [[a b e] w] p]. destruct p; reflexivity. Qed.
Lemma cp_act seen s c : act seen s "cp" (snd (cp_line c)) = if (Z.leb 0 (cli c) && Z.ltb (cli c) (nsn0 s) && Z.leb 0 (clj c) && Z.ltb (clj c) (nsn1 s))%bool
  then ROk (NS (nsk0 s) (nsk1 s) (nsn0 s) (nsn1 s) (fun a b => if (Z.eqb a (cli c) && Z.eqb b (clj c))%bool then clc c else nsnet s a b) (nss0 s) (nss1 s)) else RFail s.
Proof.
  change (act seen s "cp" (snd (cp_line c))) with (nkCP s 0 (snd (cp_line c))).
  pose proof (cp_vec c []) as V. rewrite app_nil_r in V. unfold nkCP. destruct c as [i j [p w] pr]. unfold cp_line in *. cbn [cli clj clc nc_cp nc_w clpar snd app skipn ZTKInt tok_int ZTKDouble tok_num] in *. rewrite V. reflexivity.
Qed.
Lemma net_keep seen s k v s1 : act seen s k v = ROk s1 -> k <> "cp" -> k <> "size" \/ occs "size" seen <> 0%nat -> nsnet s1 = nsnet s.
Proof. intros H N C. acts H; try reflexivity; try congruence. destruct C as [C|C]; [congruence|]. match goal with Q : Nat.leb 1 _ = false |- _ => apply leb_some in Q; contradiction end. Qed.
Definition cp_good (e : entry) : Prop := fst e = "cp" -> exists c, e = cp_line c.
Lemma net_one seen s e s1 i j : act seen s (fst e) (snd e) = ROk s1 -> cp_good e -> fst e <> "size" \/ occs "size" seen <> 0%nat -> (forall c, e = cp_line c -> ~ at_cp i j c) -> nsnet s1 i j = nsnet s i j.
Proof.
  intros E G C NO. destruct (string_dec (fst e) "cp") as [X|X].
  - destruct (G X) as (c & ->). specialize (NO c eq_refl). change (fst (cp_line c)) with "cp" in E. rewrite cp_act in E. destruct (_ && _)%bool in E; [|discriminate]. injection E as <-. cbn [nsnet].
    destruct (Z.eqb_spec i (cli c)) as [->|?]; [|reflexivity]. destruct (Z.eqb_spec j (clj c)) as [->|?]; [|reflexivity]. exfalso. apply NO. split; reflexivity.
  - rewrite (net_keep _ _ _ _ _ E X C). reflexivity.
Qed.
Lemma net_none d : forall seen s s' i j, evalKeys T seen s d = ROk s' -> Forall cp_good d -> occs "size" seen <> 0%nat -> no_cp d i j -> nsnet s' i j = nsnet s i j.
Proof.
  induction d as [|e d IH]; intros seen s s' i j E G O NC; [cbn in E; injection E as <-; reflexivity|]. destruct e as [k v]. rewrite ev_cons in E. destruct (act seen s k v) as [s1|?|] eqn:Q; try discriminate. inversion G as [|? ? G1 G2]; subst.
  rewrite (IH _ _ _ i j E G2).
  - apply (net_one seen s (k, v) s1 i j Q G1 (or_intror O)). intros c Ec. apply NC. left. symmetry. symmetry. exact Ec.
  - rewrite occs_cons. destruct (string_dec k "size"); lia.
  - intros c I. apply NC. right. exact I.
Qed.
Lemma net_last d1 : forall seen s s' i j c d2, evalKeys T seen s (d1 ++ cp_line c :: d2) = ROk s' -> Forall cp_good d2 -> occs "size" seen <> 0%nat -> at_cp i j c -> no_cp d2 i j -> nsnet s' i j = clc c.
Proof.
  intros seen s s' i j c d2 E G O (<- & <-) NC. rewrite ev_app in E. destruct (evalKeys T seen s d1) as [s1|?|]; try discriminate. change (cp_line c) with ("cp", snd (cp_line c)) in E. rewrite ev_cons, cp_act in E. destruct (_ && _)%bool in E; [|discriminate].
  rewrite (net_none d2 _ _ _ _ _ E G); [cbn [nsnet]; rewrite !Z.eqb_refl; reflexivity| |exact NC]. apply occs_has. right. apply in_or_app. right. destruct (In_dec string_dec "size" seen) as [I|I]; [exact I|]. exfalso. apply O, occs_in, I.
Qed.

(** ** Success *)
Lemma act_ok seen s k v a b : good_line vr a b (k, v) -> k = "cp" -> szof s = (a, b) -> exists s1, act seen s k v = ROk s1.
Proof.
  intros (_ & _ & _ & G) -> SZ. destruct (G eq_refl) as (c & E & I & J). assert (EV : v = snd (cp_line c)) by (rewrite <- E; reflexivity). rewrite EV. rewrite cp_act. unfold szof in SZ. injection SZ as -> ->.
  replace (Z.leb 0 (cli c)) with true by (symmetry; apply Z.leb_le; lia). replace (Z.ltb (cli c) a) with true by (symmetry; apply Z.ltb_lt; lia). replace (Z.leb 0 (clj c)) with true by (symmetry; apply Z.leb_le; lia). replace (Z.ltb (clj c) b) with true by (symmetry; apply Z.ltb_lt; lia). eexists. reflexivity.
Qed.
Lemma act_ok' seen s k v a b : good_line vr a b (k, v) -> k <> "cp" -> exists s1, act seen s k v = ROk s1.
Proof.
  intros (G1 & G2 & G3 & _) N. cbn [fst snd] in *. unfold act, once. destruct (string_dec k "uknot") as [->|?]; [|destruct (string_dec k "vknot") as [->|?]; [|destruct (string_dec k "size") as [->|?]; [|destruct (string_dec k "cp") as [->|?]; [congruence|destruct (string_dec k "slice") as [->|?]; [|eexists; reflexivity]]]]];
  (match goal with |- context [Nat.leb 1 ?n] => destruct (Nat.leb 1 n) end; [eexists; reflexivity|]).
  - destruct (G1 (or_introl eq_refl)) as (ks & E). unfold nkU. rewrite E. eexists. reflexivity.
  - destruct (G1 (or_intror eq_refl)) as (ks & E). unfold nkV. rewrite E. eexists. reflexivity.
  - destruct (G2 eq_refl) as (p & q & -> & A & B). unfold nkSize. cbn [ZTKInt tok_int]. replace (Z.ltb 0 p) with true by (symmetry; apply Z.ltb_lt; lia). replace (Z.ltb 0 q) with true by (symmetry; apply Z.ltb_lt; lia). eexists. reflexivity.
  - destruct (G3 eq_refl) as (p & q & -> & A & B). unfold nkSlice. cbn [ZTKInt tok_int]. replace (Z.leb 0 p) with true by (symmetry; apply Z.leb_le; lia). replace (Z.leb 0 q) with true by (symmetry; apply Z.leb_le; lia). eexists. reflexivity.
Qed.
Lemma ev_ok a b d : forall seen s, Forall (good_line vr a b) d -> (szof s = (a, b) /\ occs "size" seen <> 0%nat) \/ ~ List.In "cp" (map fst d) -> exists s', evalKeys T seen s d = ROk s'.
Proof.
  induction d as [|[k v] d IH]; intros seen s G C; [eexists; reflexivity|]. inversion G as [|? ? G1 G2]; subst. rewrite ev_cons.
  assert (X : exists s1, act seen s k v = ROk s1). { destruct (string_dec k "cp") as [K|K]; [|apply (act_ok' seen s k v a b G1 K)]. destruct C as [(C & _)|C]; [apply (act_ok seen s k v a b G1 K C)|exfalso; apply C; left; exact K]. }
  destruct X as (s1 & X). rewrite X. apply IH; [exact G2|]. destruct C as [(C & O)|C]; [left|right; intros I; apply C; right; exact I]. split; [rewrite (sz_keep _ _ _ _ _ X (or_intror O)); exact C|]. rewrite occs_cons. destruct (string_dec k "size"); lia.
Qed.
End S.

(** ** Reading *)
Definition st_facts (mem : Z -> Z -> cell) (a b : Z) (ks0 ks1 : list R) (d d2 : sect) (s : nst) : Prop :=
  nsk0 s = Some ks0 /\ nsk1 s = Some ks1 /\ nsn0 s = a /\ nsn1 s = b /\ (forall p q, first_line "slice" [TInt p; TInt q] d -> nss0 s = p /\ nss1 s = q) /\
  (forall i j c, last_cp d2 i j c -> nsnet s i j = clc c) /\ (forall i j, no_cp d2 i j -> nsnet s i j = mem i j).
Lemma nuf_state vr mem sl d1 a b d2 v0 v1 ks0 ks1 : let d := d1 ++ ("size", [TInt a; TInt b]) :: d2 in
  Forall (good_line vr a b) d -> ~ List.In "size" (map fst d1) -> ~ List.In "cp" (map fst d1) -> (0 < a)%Z -> (0 < b)%Z ->
  first_line "uknot" v0 d -> vr v0 = Some ks0 -> first_line "vknot" v1 d -> vr v1 = Some ks1 ->
  exists s, ZTKEvalKey (nurbsPrp vr mem) (nsInit mem sl) d = ROk s /\ st_facts mem a b ks0 ks1 d d2 s.
Proof.
  intros d G N1 N2 A B F0 V0 F1 V1. unfold d in G. apply Forall_app in G. destruct G as (G1 & G2). inversion G2 as [|? ? _ G3]; subst. clear G2.
  destruct (ev_ok vr mem a b d1 [] (nsInit mem sl) G1 (or_intror N2)) as (s1 & E1). set (seen1 := rev (map fst d1) ++ []).
  assert (O1 : occs "size" seen1 = 0%nat). { apply occs_in. unfold seen1. rewrite app_nil_r, <- in_rev. exact N1. }
  set (s2 := NS (nsk0 s1) (nsk1 s1) a b mem (nss0 s1) (nss1 s1)). assert (E2 : act vr mem seen1 s1 "size" [TInt a; TInt b] = ROk s2).
  { change (act vr mem seen1 s1 "size" [TInt a; TInt b]) with (once "size" seen1 (nkSize mem s1 0 [TInt a; TInt b]) s1). unfold once. rewrite O1. cbn [Nat.leb]. unfold nkSize. cbn [ZTKInt tok_int].
    replace (Z.ltb 0 a) with true by (symmetry; apply Z.ltb_lt; lia). replace (Z.ltb 0 b) with true by (symmetry; apply Z.ltb_lt; lia). reflexivity. }
  assert (O2 : occs "size" ("size" :: seen1) <> 0%nat) by (apply occs_has; left; reflexivity).
  destruct (ev_ok vr mem a b d2 ("size" :: seen1) s2 G3 (or_introl (conj eq_refl O2))) as (s & E3).
  assert (E : evalKeys (nurbsPrp vr mem) [] (nsInit mem sl) d = ROk s) by (unfold d; rewrite ev_app, E1, ev_cons; fold seen1; rewrite E2; exact E3).
  assert (CG : Forall cp_good d2). { eapply Forall_impl; [|exact G3]. intros e (_ & _ & _ & X) Y. destruct (X Y) as (c & Z & _). exists c. exact Z. }
  destruct F0 as (x1 & x2 & F0 & NI0). destruct F1 as (y1 & y2 & F1 & NI1).
  assert (K0 : nsk0 s = Some ks0). { pose proof E as Q. rewrite F0 in Q. rewrite <- V0. apply (lens_sets vr mem "uknot" nsk0 (fun v x => x = vr v /\ vr v <> None) (k0_keep vr mem) (k0_sets vr mem) x1 [] (nsInit mem sl) s v0 x2 Q NI0 eq_refl). }
  assert (K1 : nsk1 s = Some ks1). { pose proof E as Q. rewrite F1 in Q. rewrite <- V1. apply (lens_sets vr mem "vknot" nsk1 (fun v x => x = vr v /\ vr v <> None) (k1_keep vr mem) (k1_sets vr mem) y1 [] (nsInit mem sl) s v1 y2 Q NI1 eq_refl). }
  assert (SZ : szof s = (a, b)). { rewrite (lens_keep vr mem "size" szof (sz_keep vr mem) d2 _ _ _ E3 (or_intror O2)). reflexivity. }
  unfold szof in SZ. injection SZ as S0 S1. exists s. split; [exact E|]. split; [exact K0|]. split; [exact K1|]. split; [exact S0|]. split; [exact S1|]. split; [|split].
  - intros p q (z1 & z2 & F & NI). pose proof E as Q. rewrite F in Q. pose proof (lens_sets vr mem "slice" slof (fun v x => x = (fst (ZTKInt v), fst (ZTKInt (snd (ZTKInt v))))) (sl_keep vr mem) (sl_sets vr mem) z1 [] (nsInit mem sl) s _ z2 Q NI eq_refl) as X. unfold slof in X. cbn [ZTKInt tok_int fst snd] in X. injection X as -> ->. split; reflexivity.
  - intros i j c (c1 & c2 & -> & AT & NC). apply Forall_app in CG. destruct CG as (_ & CG). inversion CG; subst. apply (net_last vr mem c1 _ _ _ _ _ _ _ E3); [assumption|exact O2|exact AT|exact NC].
  - intros i j NC. rewrite (net_none vr mem d2 _ _ _ _ _ E3 CG O2 NC). reflexivity.
Qed.
Theorem nuf_read vr mem sl d1 a b d2 v0 v1 ks0 ks1 : let d := d1 ++ ("size", [TInt a; TInt b]) :: d2 in
  Forall (good_line vr a b) d -> ~ List.In "size" (map fst d1) -> ~ List.In "cp" (map fst d1) -> (0 < a)%Z -> (0 < b)%Z ->
  first_line "uknot" v0 d -> vr v0 = Some ks0 -> first_line "vknot" v1 d -> vr v1 = Some ks1 -> (a + 1 < Z.of_nat (length ks0))%Z -> (b + 1 < Z.of_nat (length ks1))%Z ->
  exists n, zNURBS3DFromZTK vr mem sl d = Some (Some n) /\ nu_n0 n = Z.to_nat a /\ nu_n1 n = Z.to_nat b /\ bs_knot (nu_0 n) = ks0 /\ bs_knot (nu_1 n) = ks1 /\
    length ks0 = (nu_n0 n + bs_order (nu_0 n) + 1)%nat /\ length ks1 = (nu_n1 n + bs_order (nu_1 n) + 1)%nat /\
    (forall p q, first_line "slice" [TInt p; TInt q] d -> bs_slice (nu_0 n) = Z.to_nat p /\ bs_slice (nu_1 n) = Z.to_nat q) /\
    (forall i j c, last_cp d2 (Z.of_nat i) (Z.of_nat j) c -> nu_net n i j = clc c) /\
    (forall i j, no_cp d2 (Z.of_nat i) (Z.of_nat j) -> nu_net n i j = mem (Z.of_nat i) (Z.of_nat j)).
Proof.
  intros d G N1 N2 A B F0 V0 F1 V1 L0 L1. destruct (nuf_state vr mem sl d1 a b d2 v0 v1 ks0 ks1 G N1 N2 A B F0 V0 F1 V1) as (s & E & K0 & K1 & S0 & S1 & SL & LA & NO). fold d in E, SL.
  unfold zNURBS3DFromZTK. rewrite E, K0, K1, S0, S1. replace (Z.leb (Z.of_nat (length ks0) - a - 1) 0) with false by (symmetry; apply Z.leb_gt; lia). replace (Z.leb (Z.of_nat (length ks1) - b - 1) 0) with false by (symmetry; apply Z.leb_gt; lia).
  eexists. split; [reflexivity|]. cbn [nu_n0 nu_n1 nu_0 nu_1 bs_knot bs_order bs_slice nu_net]. split; [reflexivity|]. split; [reflexivity|]. split; [reflexivity|]. split; [reflexivity|]. split; [lia|]. split; [lia|]. split; [|split].
  - intros p q F. destruct (SL p q F) as (-> & ->). split; reflexivity.
  - intros i j c. apply LA.
  - intros i j. apply NO.
Qed.
(** too few knots for a positive degree *)
Theorem nuf_few vr mem sl d1 a b d2 v0 v1 ks0 ks1 : let d := d1 ++ ("size", [TInt a; TInt b]) :: d2 in
  Forall (good_line vr a b) d -> ~ List.In "size" (map fst d1) -> ~ List.In "cp" (map fst d1) -> (0 < a)%Z -> (0 < b)%Z ->
  first_line "uknot" v0 d -> vr v0 = Some ks0 -> first_line "vknot" v1 d -> vr v1 = Some ks1 -> (Z.of_nat (length ks0) <= a + 1)%Z \/ (Z.of_nat (length ks1) <= b + 1)%Z ->
  zNURBS3DFromZTK vr mem sl d = Some None.
Proof.
  intros d G N1 N2 A B F0 V0 F1 V1 L. destruct (nuf_state vr mem sl d1 a b d2 v0 v1 ks0 ks1 G N1 N2 A B F0 V0 F1 V1) as (s & E & K0 & K1 & S0 & S1 & _). fold d in E.
  unfold zNURBS3DFromZTK. rewrite E, K0, K1, S0, S1. destruct (Z.leb_spec (Z.of_nat (length ks0) - a - 1) 0); [reflexivity|]. replace (Z.leb (Z.of_nat (length ks1) - b - 1) 0) with true by (symmetry; apply Z.leb_le; lia). reflexivity.
Qed.
(** control points before the size, and outside of the net *)
Theorem nuf_early vr mem sl a b d1 c d2 : Forall (good_line vr a b) d1 -> ~ List.In "size" (map fst d1) -> ~ List.In "cp" (map fst d1) -> zNURBS3DFromZTK vr mem sl (d1 ++ cp_line c :: d2) = Some None.
Proof.
  intros G N1 N2. destruct (ev_ok vr mem a b d1 [] (nsInit mem sl) G (or_intror N2)) as (s1 & E1). pose proof (lens_keep vr mem "size" szof (sz_keep vr mem) d1 _ _ _ E1 (or_introl N1)) as SZ. unfold szof in SZ. cbn [nsInit nsn0 nsn1] in SZ. injection SZ as S0 S1.
  unfold zNURBS3DFromZTK, ZTKEvalKey. rewrite ev_app, E1. change (cp_line c) with ("cp", snd (cp_line c)). rewrite ev_cons, cp_act, S0, S1.
  replace (Z.leb 0 (cli c) && Z.ltb (cli c) 0)%bool with false by (destruct (Z.leb_spec 0 (cli c)), (Z.ltb_spec (cli c) 0); cbn; lia). reflexivity.
Qed.
Theorem nuf_outside vr mem sl a b d1 c d2 s : ZTKEvalKey (nurbsPrp vr mem) (nsInit mem sl) d1 = ROk s -> szof s = (a, b) -> ~ ((0 <= cli c < a)%Z /\ (0 <= clj c < b)%Z) -> zNURBS3DFromZTK vr mem sl (d1 ++ cp_line c :: d2) = Some None.
Proof.
  intros E SZ NI. unfold szof in SZ. injection SZ as S0 S1. unfold zNURBS3DFromZTK, ZTKEvalKey in *. rewrite ev_app, E. change (cp_line c) with ("cp", snd (cp_line c)). rewrite ev_cons, cp_act, S0, S1.
  destruct (Z.leb_spec 0 (cli c)), (Z.ltb_spec (cli c) a), (Z.leb_spec 0 (clj c)), (Z.ltb_spec (clj c) b); cbn [andb]; try reflexivity. exfalso. apply NI. lia.
Qed.
Theorem nuf_beyond vr mem sl d1 a b d2 c d3 : Forall (good_line vr a b) (d1 ++ ("size", [TInt a; TInt b]) :: d2) -> ~ List.In "size" (map fst d1) -> ~ List.In "cp" (map fst d1) -> (0 < a)%Z -> (0 < b)%Z ->
  ~ ((0 <= cli c < a)%Z /\ (0 <= clj c < b)%Z) -> zNURBS3DFromZTK vr mem sl (d1 ++ ("size", [TInt a; TInt b]) :: d2 ++ cp_line c :: d3) = Some None.
Proof.
  intros G N1 N2 A B NI. apply Forall_app in G. destruct G as (G1 & G2). inversion G2 as [|? ? _ G3]; subst. clear G2.
  destruct (ev_ok vr mem a b d1 [] (nsInit mem sl) G1 (or_intror N2)) as (s1 & E1). set (seen1 := rev (map fst d1) ++ []).
  assert (O1 : occs "size" seen1 = 0%nat). { apply occs_in. unfold seen1. rewrite app_nil_r, <- in_rev. exact N1. }
  set (s2 := NS (nsk0 s1) (nsk1 s1) a b mem (nss0 s1) (nss1 s1)). assert (E2 : act vr mem seen1 s1 "size" [TInt a; TInt b] = ROk s2).
  { change (act vr mem seen1 s1 "size" [TInt a; TInt b]) with (once "size" seen1 (nkSize mem s1 0 [TInt a; TInt b]) s1). unfold once. rewrite O1. cbn [Nat.leb]. unfold nkSize. cbn [ZTKInt tok_int].
    replace (Z.ltb 0 a) with true by (symmetry; apply Z.ltb_lt; lia). replace (Z.ltb 0 b) with true by (symmetry; apply Z.ltb_lt; lia). reflexivity. }
  assert (O2 : occs "size" ("size" :: seen1) <> 0%nat) by (apply occs_has; left; reflexivity).
  destruct (ev_ok vr mem a b d2 ("size" :: seen1) s2 G3 (or_introl (conj eq_refl O2))) as (s & E3).
  assert (SZ : szof s = (a, b)). { rewrite (lens_keep vr mem "size" szof (sz_keep vr mem) d2 _ _ _ E3 (or_intror O2)). reflexivity. }
  rewrite app_comm_cons, app_assoc. apply (nuf_outside vr mem sl a b _ c d3 s); [|exact SZ|exact NI]. unfold ZTKEvalKey. rewrite ev_app, E1, ev_cons. fold seen1. rewrite E2. exact E3.
Qed.
(** knots of an axis missing *)
Theorem nuf_missing vr mem sl d n : ~ List.In "uknot" (map fst d) \/ ~ List.In "vknot" (map fst d) -> zNURBS3DFromZTK vr mem sl d <> Some (Some n).
Proof.
  intros H. unfold zNURBS3DFromZTK. destruct (ZTKEvalKey (nurbsPrp vr mem) (nsInit mem sl) d) as [s|?|] eqn:E; try discriminate. destruct H as [H|H].
  - rewrite (lens_keep vr mem "uknot" nsk0 (k0_keep vr mem) d _ _ _ E (or_introl H)). discriminate.
  - rewrite (lens_keep vr mem "vknot" nsk1 (k1_keep vr mem) d _ _ _ E (or_introl H)). destruct (nsk0 s); [|discriminate]. destruct (Z.leb _ _); discriminate.
Qed.
(** no size: accepted as a surface without control points, which has no point *)
Theorem nuf_nosize vr mem sl a b d v0 v1 ks0 ks1 : Forall (good_line vr a b) d -> ~ List.In "size" (map fst d) -> ~ List.In "cp" (map fst d) -> first_line "uknot" v0 d -> vr v0 = Some ks0 -> first_line "vknot" v1 d -> vr v1 = Some ks1 -> (1 < length ks0)%nat -> (1 < length ks1)%nat ->
  exists n, zNURBS3DFromZTK vr mem sl d = Some (Some n) /\ nu_n0 n = 0%nat /\ nu_n1 n = 0%nat /\ forall seg u v, zNURBS3DVec seg n u v = None.
Proof.
  intros G N1 N2 (x1 & x2 & F0 & NI0) V0 (y1 & y2 & F1 & NI1) V1 L0 L1. destruct (ev_ok vr mem a b d [] (nsInit mem sl) G (or_intror N2)) as (s & E).
  pose proof (lens_keep vr mem "size" szof (sz_keep vr mem) d _ _ _ E (or_introl N1)) as SZ. unfold szof in SZ. cbn [nsInit nsn0 nsn1] in SZ. injection SZ as S0 S1.
  assert (K0 : nsk0 s = Some ks0). { pose proof E as Q. rewrite F0 in Q. rewrite <- V0. apply (lens_sets vr mem "uknot" nsk0 (fun v x => x = vr v /\ vr v <> None) (k0_keep vr mem) (k0_sets vr mem) x1 [] (nsInit mem sl) s v0 x2 Q NI0 eq_refl). }
  assert (K1 : nsk1 s = Some ks1). { pose proof E as Q. rewrite F1 in Q. rewrite <- V1. apply (lens_sets vr mem "vknot" nsk1 (fun v x => x = vr v /\ vr v <> None) (k1_keep vr mem) (k1_sets vr mem) y1 [] (nsInit mem sl) s v1 y2 Q NI1 eq_refl). }
  unfold zNURBS3DFromZTK, ZTKEvalKey. rewrite E, K0, K1, S0, S1. replace (Z.leb (Z.of_nat (length ks0) - 0 - 1) 0) with false by (symmetry; apply Z.leb_gt; lia). replace (Z.leb (Z.of_nat (length ks1) - 0 - 1) 0) with false by (symmetry; apply Z.leb_gt; lia).
  eexists. split; [reflexivity|]. cbn [nu_n0 nu_n1]. split; [reflexivity|]. split; [reflexivity|]. intros seg u v. unfold zNURBS3DVec, in_net. cbn [nu_n0 nu_n1 nu_0 nu_1]. change (Z.to_nat 0) with 0%nat. rewrite (proj2 (Nat.ltb_ge _ 0)) by lia. rewrite Bool.andb_false_r. reflexivity.
Qed.

(** ** What is printed is read *)
Lemma cp_print n i j : cpLine n i j = cp_line (CL (Z.of_nat i) (Z.of_nat j) (nu_net n i j) true).
Proof. reflexivity. Qed.
Lemma cp_inj n i j c : cp_line c = cpLine n i j -> cli c = Z.of_nat i /\ clj c = Z.of_nat j /\ clc c = nu_net n i j.
Proof.
  destruct c as [a b [[x y z] w] p]. intros H. rewrite cp_print in H. unfold cp_line in H. cbn [cli clj clc clpar nc_cp nc_w vx vy vz app] in H. destruct (nu_net n i j) as [[x' y' z'] w']. cbn [nc_cp nc_w vx vy vz] in H.
  destruct p; [|discriminate]. injection H as -> -> -> -> -> ->. repeat split.
Qed.
Lemma last_some d : forall i j c, List.In (cp_line c) d -> at_cp i j c -> Forall cp_good d -> exists c', last_cp d i j c' /\ List.In (cp_line c') d.
Proof.
  induction d as [|e d IH]; intros i j c I AT G; [destruct I|]. inversion G as [|? ? G1 G2]; subst.
  assert (DEC : (exists c', List.In (cp_line c') d /\ at_cp i j c') \/ no_cp d i j).
  { clear IH I G1 G. induction d as [|e' d IHd]; [right; intros c' X; destruct X|]. inversion G2 as [|? ? G1' G2']; subst. destruct (IHd G2') as [(c' & I & A)|N]; [left; exists c'; split; [right; exact I|exact A]|].
    destruct (string_dec (fst e') "cp") as [K|K].
    - destruct (G1' K) as (c' & ->). destruct (Z.eq_dec (cli c') i) as [X|X]; [destruct (Z.eq_dec (clj c') j) as [Y|Y]|].
      + left. exists c'. split; [left; reflexivity|split; assumption].
      + right. intros c'' [Q|Q] (A1 & A2); [|apply (N c'' Q); split; assumption]. apply Y. rewrite <- A2. assert (T : nth 1 (snd (cp_line c')) (TInt 0) = nth 1 (snd (cp_line c'')) (TInt 0)) by (rewrite Q; reflexivity). cbn in T. congruence.
      + right. intros c'' [Q|Q] (A1 & A2); [|apply (N c'' Q); split; assumption]. apply X. rewrite <- A1. assert (T : nth 0 (snd (cp_line c')) (TInt 0) = nth 0 (snd (cp_line c'')) (TInt 0)) by (rewrite Q; reflexivity). cbn in T. congruence.
    - right. intros c'' [Q|Q] A; [apply K; rewrite Q; reflexivity|apply (N c'' Q A)]. }
  destruct DEC as [(c' & I' & A')|N].
  - destruct (IH i j c' I' A' G2) as (c'' & (e1 & e2 & -> & A2 & N2) & IN). exists c''. split; [|right; exact IN]. exists (e :: e1), e2. split; [reflexivity|]. split; assumption.
  - destruct I as [->|I]; [|exfalso; apply (N c I AT)]. exists c. split; [|left; reflexivity]. exists [], d. split; [reflexivity|]. split; assumption.
Qed.
Section Print.
Variables (vp : list R -> list tok) (vr : list tok -> option (list R)) (mem : Z -> Z -> cell) (sl : Z) (n : nurbs).
Hypothesis back : forall ks, ks <> [] -> vr (vp ks) = Some ks.
Hypothesis P0 : (0 < nu_n0 n)%nat.
Hypothesis P1 : (0 < nu_n1 n)%nat.
Hypothesis L0 : length (bs_knot (nu_0 n)) = (nu_n0 n + bs_order (nu_0 n) + 1)%nat.
Hypothesis L1 : length (bs_knot (nu_1 n)) = (nu_n1 n + bs_order (nu_1 n) + 1)%nat.
Definition cps : sect := flat_map (fun i => map (cpLine n i) (seq 0 (nu_n1 n))) (seq 0 (nu_n0 n)).
Definition tail : sect := ("slice", [TInt (Z.of_nat (bs_slice (nu_0 n))); TInt (Z.of_nat (bs_slice (nu_1 n)))]) :: cps.
Definition front : sect := [("uknot", vp (bs_knot (nu_0 n))); ("vknot", vp (bs_knot (nu_1 n)))].
Lemma printed : zNURBS3DFPrintZTK vp n = front ++ ("size", [TInt (Z.of_nat (nu_n0 n)); TInt (Z.of_nat (nu_n1 n))]) :: tail.
Proof. unfold zNURBS3DFPrintZTK, knotLine, front, tail, cps. destruct (bs_knot (nu_0 n)); [cbn in L0; lia|]. destruct (bs_knot (nu_1 n)); [cbn in L1; lia|]. reflexivity. Qed.
Lemma cps_in e : List.In e cps <-> exists i j, (i < nu_n0 n)%nat /\ (j < nu_n1 n)%nat /\ e = cpLine n i j.
Proof.
  unfold cps. rewrite in_flat_map. split.
  - intros (i & I & H). apply in_map_iff in H. destruct H as (j & <- & J). apply in_seq in I, J. exists i, j. repeat split; lia.
  - intros (i & j & I & J & ->). exists i. split; [apply in_seq; lia|]. apply in_map. apply in_seq. lia.
Qed.
Lemma back0 : vr (vp (bs_knot (nu_0 n))) = Some (bs_knot (nu_0 n)).
Proof. apply back. intros X. rewrite X in L0. cbn in L0. lia. Qed.
Lemma back1 : vr (vp (bs_knot (nu_1 n))) = Some (bs_knot (nu_1 n)).
Proof. apply back. intros X. rewrite X in L1. cbn in L1. lia. Qed.
Lemma print_good : Forall (good_line vr (Z.of_nat (nu_n0 n)) (Z.of_nat (nu_n1 n))) (front ++ ("size", [TInt (Z.of_nat (nu_n0 n)); TInt (Z.of_nat (nu_n1 n))]) :: tail).
Proof.
  apply Forall_forall. intros e H. apply in_app_or in H. destruct H as [H|[<-|[<-|H]]].
  - cbn in H. destruct H as [<-|[<-|[]]]; (split; [intros _; cbn [snd]; eexists; first [apply back0|apply back1]|cbn [fst snd]; split; [intros X; discriminate|split; intros X; discriminate]]).
  - unfold good_line. cbn [fst snd]. split; [intros [X|X]; discriminate|]. split; [|split; intros X; discriminate]. intros _. eexists. eexists. split; [reflexivity|]. lia.
  - unfold good_line. cbn [fst snd]. split; [intros [X|X]; discriminate|]. split; [intros X; discriminate|]. split; [|intros X; discriminate]. intros _. eexists. eexists. split; [reflexivity|]. lia.
  - apply cps_in in H. destruct H as (i & j & I & J & ->). rewrite cp_print. unfold good_line. change (fst (cp_line (CL (Z.of_nat i) (Z.of_nat j) (nu_net n i j) true))) with "cp". split; [intros [X|X]; discriminate|]. split; [discriminate|]. split; [discriminate|]. intros _. eexists. split; [reflexivity|]. cbn [cli clj]. lia.
Qed.
Lemma tail_cp : Forall cp_good tail.
Proof. apply Forall_forall. intros e [<-|H] K; [discriminate|]. apply cps_in in H. destruct H as (i & j & _ & _ & ->). eexists. apply cp_print. Qed.
Lemma front_size : ~ List.In "size" (map fst front).
Proof. cbn. intros [X|[X|[]]]; discriminate. Qed.
Lemma front_cp : ~ List.In "cp" (map fst front).
Proof. cbn. intros [X|[X|[]]]; discriminate. Qed.
Lemma first_u d : first_line "uknot" (vp (bs_knot (nu_0 n))) (front ++ d).
Proof. exists [], (("vknot", vp (bs_knot (nu_1 n))) :: d). split; [reflexivity|intros []]. Qed.
Lemma first_v d : first_line "vknot" (vp (bs_knot (nu_1 n))) (front ++ d).
Proof. exists [("uknot", vp (bs_knot (nu_0 n)))], d. split; [reflexivity|]. cbn. intros [X|[]]; discriminate. Qed.
Lemma round_state : (0 < bs_order (nu_0 n))%nat -> (0 < bs_order (nu_1 n))%nat -> exists n', zNURBS3DFromZTK vr mem sl (zNURBS3DFPrintZTK vp n) = Some (Some n') /\ same_nurbs n n'.
Proof.
  intros O0 O1. rewrite printed. destruct (nuf_read vr mem sl front (Z.of_nat (nu_n0 n)) (Z.of_nat (nu_n1 n)) tail _ _ _ _ print_good front_size front_cp ltac:(lia) ltac:(lia) (first_u _) back0 (first_v _) back1 ltac:(lia) ltac:(lia)) as (n' & E & N0 & N1 & K0 & K1 & O0' & O1' & SL & LA & _).
  exists n'. split; [exact E|]. rewrite Nat2Z.id in N0, N1. destruct (SL (Z.of_nat (bs_slice (nu_0 n))) (Z.of_nat (bs_slice (nu_1 n)))) as (S0 & S1).
  { exists (front ++ [("size", [TInt (Z.of_nat (nu_n0 n)); TInt (Z.of_nat (nu_n1 n))])]), cps. split; [reflexivity|]. cbn. intros [X|[X|[X|[]]]]; discriminate. }
  rewrite Nat2Z.id in S0, S1. split; [|split; [|split; [exact N0|split; [exact N1|]]]].
  - destruct (nu_0 n') as [o ks s], (nu_0 n) as [o2 ks2 s2]. cbn [bs_order bs_knot bs_slice] in *. subst. f_equal. lia.
  - destruct (nu_1 n') as [o ks s], (nu_1 n) as [o2 ks2 s2]. cbn [bs_order bs_knot bs_slice] in *. subst. f_equal. lia.
  - intros i j I J. assert (IN : List.In (cp_line (CL (Z.of_nat i) (Z.of_nat j) (nu_net n i j) true)) tail) by (right; apply cps_in; exists i, j; repeat split; assumption).
    destruct (last_some tail (Z.of_nat i) (Z.of_nat j) _ IN (conj eq_refl eq_refl) tail_cp) as (c' & LC & IC). rewrite (LA i j c' LC). destruct IC as [X|IC]; [discriminate|]. apply cps_in in IC. destruct IC as (i' & j' & _ & _ & X). apply cp_inj in X. destruct X as (X1 & X2 & X3). destruct LC as (_ & _ & _ & (A1 & A2) & _). rewrite X3. f_equal; lia.
Qed.
Lemma curve_state : bs_order (nu_0 n) = 0%nat \/ bs_order (nu_1 n) = 0%nat -> zNURBS3DFromZTK vr mem sl (zNURBS3DFPrintZTK vp n) = Some None.
Proof.
  intros O. rewrite printed. apply (nuf_few vr mem sl front (Z.of_nat (nu_n0 n)) (Z.of_nat (nu_n1 n)) tail _ _ _ _ print_good front_size front_cp ltac:(lia) ltac:(lia) (first_u _) back0 (first_v _) back1). lia.
Qed.
End Print.
Theorem nuf_round vp vr mem sl n : (forall ks, ks <> [] -> vr (vp ks) = Some ks) -> storable n -> exists n', zNURBS3DFromZTK vr mem sl (zNURBS3DFPrintZTK vp n) = Some (Some n') /\ same_nurbs n n'.
Proof.
  intros B (P0 & P1 & O0 & O1 & L0 & L1). apply round_state; assumption.
Qed.
(** curves, with degree 0 along one axis, are printed but refused *)
Theorem nuf_curve vp vr mem sl size order slice : (forall ks, ks <> [] -> vr (vp ks) = Some ks) -> (order < size)%nat ->
  exists n, zNURBS3DAlloc 1 size 0 order slice = Some n /\ zNURBS3DFromZTK vr mem sl (zNURBS3DFPrintZTK vp n) = Some None.
Proof.
  intros B LT. unfold zNURBS3DAlloc. rewrite (proj2 (Nat.leb_gt size order) LT). cbn [Nat.leb orb]. eexists. split; [reflexivity|].
  apply curve_state; cbn [nu_n0 nu_n1 nu_0 nu_1 bs_knot bs_order]; [exact B|lia|lia|reflexivity| |left; reflexivity].
  unfold knotInit. rewrite !app_length, !repeat_length, map_length, seq_length. lia.
Qed.
(** the same surface has the same points *)
Lemma fold_ext {A B} (f g : A -> B -> A) l : forall a, (forall x b, List.In b l -> f x b = g x b) -> fold_left f l a = fold_left g l a.
Proof. induction l as [|b l IH]; intros a H; [reflexivity|]. cbn [fold_left]. rewrite (H a b (or_introl eq_refl)). apply IH. intros x c I. apply H. right. exact I. Qed.
Theorem nuf_points seg n n' u v : same_nurbs n n' -> zNURBS3DVec seg n' u v = zNURBS3DVec seg n u v.
Proof.
  intros (E0 & E1 & E2 & E3 & NET). unfold zNURBS3DVec. unfold in_net. cbv zeta. rewrite E0, E1, E2, E3. set (su := zBSplineParamSeg seg (nu_0 n) u). set (sv := zBSplineParamSeg seg (nu_1 n) v).
  destruct (Nat.leb (bs_order (nu_0 n)) su) eqn:A; [|reflexivity]. destruct (Nat.ltb su (nu_n0 n)) eqn:B; [|reflexivity]. destruct (Nat.leb (bs_order (nu_1 n)) sv) eqn:C; [|reflexivity]. destruct (Nat.ltb sv (nu_n1 n)) eqn:D; [|reflexivity]. cbn [andb].
  apply Nat.leb_le in A, C. apply Nat.ltb_lt in B, D.
  assert (IN : forall p s i, (bs_order p <= s)%nat -> List.In i (active p s) -> (i <= s)%nat) by (intros p s i L H; unfold active in H; apply in_seq in H; lia).
  assert (X : fold_left (fun '(p, den) i => let bu := zBSplineParamBasis (nu_0 n) u i (bs_order (nu_0 n)) su in let '(tmp, dv) := fold_left (fun '(tmp, dv) j => let bv := zNURBS3DWeight n' i j * zBSplineParamBasis (nu_1 n) v j (bs_order (nu_1 n)) sv in (zVec3DCat tmp bv (zNURBS3DCP n' i j), dv + bv)) (active (nu_1 n) sv) (v3zero, 0) in (zVec3DCat p bu tmp, den + bu * dv)) (active (nu_0 n) su) (v3zero, 0) =
    fold_left (fun '(p, den) i => let bu := zBSplineParamBasis (nu_0 n) u i (bs_order (nu_0 n)) su in let '(tmp, dv) := fold_left (fun '(tmp, dv) j => let bv := zNURBS3DWeight n i j * zBSplineParamBasis (nu_1 n) v j (bs_order (nu_1 n)) sv in (zVec3DCat tmp bv (zNURBS3DCP n i j), dv + bv)) (active (nu_1 n) sv) (v3zero, 0) in (zVec3DCat p bu tmp, den + bu * dv)) (active (nu_0 n) su) (v3zero, 0)).
  { apply fold_ext. intros [p den] i I. apply IN in I; [|exact A]. cbv zeta. erewrite fold_ext; [reflexivity|]. intros [t dv] j J. apply IN in J; [|exact C]. unfold zNURBS3DWeight, zNURBS3DCP. rewrite NET by lia. reflexivity. }
  cbv zeta in X. rewrite X. reflexivity.
Qed.

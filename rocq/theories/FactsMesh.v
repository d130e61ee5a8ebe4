(** Numbering of the generated meshes: for every division number, which sides the
    faces have. *)
From Verif Require Import Base SpecGeom SpecFrame SpecBox SpecShape SpecMesh ModelMesh FactsPH FactsPH4.
From Coq Require Import Lia.
Open Scope nat_scope.

(** ** sides of faces with vertices of any type *)
Definition psides {A} (f : A * A * A) : list (A * A) := let '(a, b, c) := f in [(a, b); (b, c); (c, a)].
Definition pall {A} (fs : list (A * A * A)) : list (A * A) := flat_map psides fs.
Definition emap {A B} (g : A -> B) (e : A * A) : B * B := (g (fst e), g (snd e)).
Definition fmap {A B} (g : A -> B) (f : A * A * A) : B * B * B := let '(a, b, c) := f in (g a, g b, g c).
Lemma pall_nat fs : pall fs = all_sides fs.
Proof. unfold pall, all_sides. apply flat_map_ext. intros [[a b] c]. reflexivity. Qed.
Lemma pall_map {A B} (g : A -> B) fs : pall (map (fmap g) fs) = map (emap g) (pall fs).
Proof. induction fs as [|[[a b] c] fs IH]; [reflexivity|]. simpl. rewrite IH. reflexivity. Qed.
Lemma pall_app {A} (a b : list (A * A * A)) : pall (a ++ b) = pall a ++ pall b.
Proof. apply flat_map_app. Qed.
Lemma pall_flat {A B} (g : B -> list (A * A * A)) l : pall (flat_map g l) = flat_map (fun x => pall (g x)) l.
Proof. induction l as [|x l IH]; [reflexivity|]. simpl. rewrite pall_app, IH. reflexivity. Qed.
Lemma pall_mapf {A B} (g : B -> A * A * A) l : pall (map g l) = flat_map (fun x => psides (g x)) l.
Proof. induction l as [|x l IH]; [reflexivity|]. simpl. rewrite IH. reflexivity. Qed.
Lemma NoDup_join {A} (l m : list A) : NoDup l -> NoDup m -> (forall x, List.In x l -> ~ List.In x m) -> NoDup (l ++ m).
Proof.
  induction l as [|a l IH]; intros N M D; [exact M|]. apply NoDup_cons_iff in N. destruct N as [Na N]. simpl. constructor.
  - rewrite in_app_iff. intros [H|H]; [auto|]. apply (D a); [left; reflexivity|auto].
  - apply IH; auto. intros x H. apply D. right; auto.
Qed.
Lemma NoDup_flat {A B} (f : A -> list B) l : NoDup l -> (forall a, List.In a l -> NoDup (f a)) ->
  (forall a b x, List.In a l -> List.In b l -> List.In x (f a) -> List.In x (f b) -> a = b) -> NoDup (flat_map f l).
Proof.
  induction l as [|a l IH]; intros N F D; simpl; [constructor|].
  apply NoDup_cons_iff in N. destruct N as [Na N].
  apply NoDup_join; [apply F; left; reflexivity| |].
  - apply IH; auto; intros; [apply F|eapply D]; eauto; right; auto.
  - intros x Hx Hx'. apply in_flat_map in Hx'. destruct Hx' as (b & Hb & Hx'). 
    apply Na. rewrite (D a b x); auto; [left|right]; auto.
Qed.

(** ** gluing: sides that come in pairs, none twice *)
Definition paired {A} (fs : list (A * A * A)) : Prop :=
  NoDup (pall fs) /\ forall e, List.In e (pall fs) -> List.In (opp e) (pall fs).
Lemma paired_oriented fs : paired fs -> oriented fs.
Proof. intros [N O]. rewrite pall_nat in *. apply oriented_in; auto. Qed.
Definition used {A} (P : A -> Prop) (fs : list (A * A * A)) : Prop :=
  Forall (fun f => let '(a, b, c) := f in P a /\ P b /\ P c) fs.
Lemma used_sides {A} (P : A -> Prop) fs e : used P fs -> List.In e (pall fs) -> P (fst e) /\ P (snd e).
Proof.
  intros U H. apply in_flat_map in H. destruct H as ([[a b] c] & Hf & H).
  apply (proj1 (Forall_forall _ _) U) in Hf. destruct Hf as (Pa & Pb & Pc).
  simpl in H. destruct H as [<-|[<-|[<-|[]]]]; simpl; auto.
Qed.
Lemma NoDup_emap {A B} (g : A -> B) (P : A -> Prop) l : (forall x y, P x -> P y -> g x = g y -> x = y) ->
  (forall e, List.In e l -> P (fst e) /\ P (snd e)) -> NoDup l -> NoDup (map (emap g) l).
Proof.
  intros I. induction l as [|[a b] l IH]; intros F N; simpl; [constructor|].
  apply NoDup_cons_iff in N. destruct N as [Na N]. constructor.
  - rewrite in_map_iff. intros ([a' b'] & E & H). apply Na. unfold emap in E; simpl in E. injection E as E1 E2.
    destruct (F (a, b)) as [P1 P2]; [left; reflexivity|]. destruct (F (a', b')) as [P3 P4]; [right; exact H|]. simpl in *.
    apply I in E1; auto. apply I in E2; auto. subst. exact H.
  - apply IH; auto. intros e H. apply F. right; exact H.
Qed.
Lemma paired_map {A B} (g : A -> B) (P : A -> Prop) fs : (forall x y, P x -> P y -> g x = g y -> x = y) ->
  used P fs -> paired fs -> paired (map (fmap g) fs).
Proof.
  intros I U [N O]. unfold paired. rewrite pall_map. split.
  - eapply NoDup_emap; eauto. intros e. apply used_sides; exact U.
  - intros e H. apply in_map_iff in H. destruct H as ([a b] & <- & H). apply O in H.
    apply (in_map (emap g)) in H. exact H.
Qed.

(** cyclic neighbours *)
Definition nxt (n a b : nat) : Prop := (b = S a /\ b < n) \/ (a = n - 1 /\ b = 0 /\ 0 < n).
Lemma prev0_nxt n i : i < n -> nxt n (prev0 n i) i.
Proof. unfold nxt, prev0. destruct i; lia. Qed.
Lemma prev1_ok n i : 1 <= i <= n -> (i = 1 /\ prev1 n i = n) \/ (1 < i /\ prev1 n i = i - 1).
Proof. unfold prev1. destruct (Nat.eqb_spec i 1); lia. Qed.

Ltac inv_in := repeat match goal with
  | H : List.In _ (_ ++ _) |- _ => apply in_app_or in H; destruct H as [H|H]
  | H : List.In _ (flat_map _ _) |- _ => let k := fresh "k" in let L := fresh "L" in apply in_flat_map in H; destruct H as (k & L & H)
  | H : List.In _ (seq _ _) |- _ => apply in_seq in H
  | H : List.In _ (_ :: _) |- _ => let E := fresh "E" in destruct H as [E|H]
  | H : List.In _ nil |- _ => destruct H
  | H : (_, _) = (_, _) |- _ => let E1 := fresh "E" in let E2 := fresh "E" in apply pair_equal_spec in H; destruct H as [E1 E2]
  | H : (_, _) = _ |- _ => subst
  end.
Ltac open_sides := unfold psides, pall in *; cbn [flat_map app fst snd] in *.
Ltac nd_seq := apply seq_NoDup.
(** prev0 and prev1 in terms of linear arithmetic *)
Ltac prevs := repeat match goal with
  | H : context [prev0 ?n ?i] |- _ => let q := fresh "q" in let Q := fresh "Q" in
      assert (Q : i < n -> nxt n (prev0 n i) i) by (apply prev0_nxt); set (q := prev0 n i) in *; clearbody q
  | |- context [prev0 ?n ?i] => let q := fresh "q" in let Q := fresh "Q" in
      assert (Q : i < n -> nxt n (prev0 n i) i) by (apply prev0_nxt); set (q := prev0 n i) in *; clearbody q
  | H : context [prev1 ?n ?i] |- _ => let q := fresh "q" in let Q := fresh "Q" in
      assert (Q := prev1_ok n i); set (q := prev1 n i) in *; clearbody q
  | |- context [prev1 ?n ?i] => let q := fresh "q" in let Q := fresh "Q" in
      assert (Q := prev1_ok n i); set (q := prev1 n i) in *; clearbody q
  end.
Ltac arith := prevs; unfold nxt in *; lia.

(** ** cone *)
Definition cone_side (n a b : nat) : Prop :=
  (a = 0 /\ 1 <= b <= n) \/ (b = 0 /\ 1 <= a <= n) \/
  (1 <= a <= n /\ 1 <= b <= n /\ (b = S a \/ (a = n /\ b = 1) \/ a = S b \/ (a = 1 /\ b = n))) \/
  (a = 1 /\ 3 <= b < n) \/ (b = 1 /\ 3 <= a < n).
Lemma cone_side_in n a b : 3 <= n -> List.In (a, b) (pall (cone_faces n)) <-> cone_side n a b.
Proof.
  intros Hn. unfold cone_faces. rewrite pall_app, !pall_mapf. split.
  - intros H. unfold cone_side. inv_in; open_sides; inv_in; arith.
  - intros H. rewrite in_app_iff, !in_flat_map. unfold cone_side in H.
    destruct H as [H|[H|[(Ha & Hb & H)|[H|H]]]].
    + left. destruct (Nat.eq_dec b n); [exists 1|exists (S b)]; split; try (apply in_seq; lia); left; f_equal; unfold prev1; simpl; try lia; destruct b; simpl; lia.
    + left. exists a. split; [apply in_seq; lia|]. do 2 right; left. f_equal; lia.
    + destruct H as [H|[H|[H|H]]].
      * left. exists b. split; [apply in_seq; lia|]. right; left. f_equal; arith.
      * left. exists b. split; [apply in_seq; lia|]. right; left. f_equal; arith.
      * right. destruct (Nat.eq_dec a 2); [exists 3|exists a]; (split; [apply in_seq; lia|]); [do 2 right; left|right; left]; f_equal; lia.
      * right. exists b. split; [apply in_seq; lia|]. left. f_equal; lia.
    + right. exists b. split; [apply in_seq; lia|]. left. f_equal; lia.
    + right. exists (S a). split; [apply in_seq; lia|]. do 2 right; left. f_equal; lia.
Qed.
Lemma cone_paired n : 3 <= n -> paired (cone_faces n).
Proof.
  intros Hn. split.
  - unfold cone_faces. rewrite pall_app, !pall_mapf. apply NoDup_join; [apply NoDup_flat; [nd_seq| |]|apply NoDup_flat; [nd_seq| |]|].
    + intros a H. inv_in. open_sides. repeat constructor; simpl; intros K; repeat destruct K as [K|K]; try injection K as K1 K2; try contradiction; arith.
    + intros a b x Ha Hb H1 H2. destruct x as [x y]. open_sides. inv_in; arith.
    + intros a H. inv_in. open_sides. repeat constructor; simpl; intros K; repeat destruct K as [K|K]; try injection K as K1 K2; try contradiction; arith.
    + intros a b x Ha Hb H1 H2. destruct x as [x y]. open_sides. inv_in; arith.
    + intros [x y] H1 H2. inv_in; open_sides; inv_in; arith.
  - intros [a b]. unfold opp; simpl. rewrite !cone_side_in by exact Hn. unfold cone_side. lia.
Qed.

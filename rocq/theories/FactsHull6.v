(** Closest point of a planar hull *)
From Verif Require Import Base Spec SpecGeom SpecHull ModelVec ModelElem ModelHull FactsVec FactsAlg FactsElem FactsSat FactsHull FactsHull2 FactsHull3 FactsHull4 FactsHull5.
From Coq Require Import List Lia Lra ZArith.
Import ListNotations.
Open Scope R_scope.

(** ** loops *)
Lemma loop_turn_of_edge L a b : (3 <= length L)%nat -> loop_edge L a b -> (exists z, loop_turn L z a b) /\ (exists c, loop_turn L a b c).
Proof.
  intros H (p & s & E). destruct L as [|c0 [|c1 L]]; cbn in H; try lia. cbn [firstn] in E.
  assert (E2 : (c0 :: c1 :: L) ++ firstn 2 (c0 :: c1 :: L) = p ++ a :: b :: s ++ [c1]). { cbn [firstn]. change [c0; c1] with ([c0] ++ [c1]). rewrite app_assoc, E. rewrite <- app_assoc. reflexivity. }
  split.
  - destruct p as [|w p] using rev_ind.
    + cbn in E. injection E as -> -> E. assert (N : L <> []) by (destruct L; [cbn in H; lia|discriminate]). destruct (exists_last N) as (L' & z & ->). exists z, (a :: b :: L'), []. cbn. rewrite <- app_assoc. reflexivity.
    + exists w, p, (s ++ [c1]). unfold loop_turn. rewrite E2. rewrite <- app_assoc. reflexivity.
  - destruct s as [|c s]; [exists c1, p, []; exact E2|]. exists c, p, (s ++ [c1]). exact E2.
Qed.
Lemma loop_edge_of_turn L a b c : loop_turn L a b c -> loop_edge L a b /\ loop_edge L b c.
Proof.
  intros (p & s & E). unfold loop_edge. destruct L as [|c0 [|c1 L]].
  - destruct p; discriminate.
  - cbn in E. destruct p as [|? [|? [|? ?]]]; discriminate.
  - cbn [firstn] in *. change [c0; c1] with ([c0] ++ [c1]) in E. rewrite app_assoc in E. set (M := (c0 :: c1 :: L) ++ [c0]) in *. destruct s as [|w s] using rev_ind.
    + assert (E' : M ++ [c1] = (p ++ [a; b]) ++ [c]) by (rewrite E, <- app_assoc; reflexivity). apply app_inj_tail in E'. destruct E' as (EM & ->). split; [exists p, []; exact EM|].
      assert (b = c0). { unfold M in EM. change [a; b] with ([a] ++ [b]) in EM. rewrite app_assoc in EM. apply app_inj_tail in EM. symmetry. apply EM. } subst b. exists [], (L ++ [c0]). reflexivity.
    + assert (E' : M ++ [c1] = (p ++ a :: b :: c :: s) ++ [w]) by (rewrite E, <- app_assoc; reflexivity). apply app_inj_tail in E'. destruct E' as (EM & _). split; [exists p, (c :: s); exact EM|exists (p ++ [a]), s; rewrite EM, <- app_assoc; reflexivity].
Qed.
Lemma loop_edge_in L a b : loop_edge L a b -> List.In a L /\ List.In b L.
Proof.
  intros J. assert (K : adj (L ++ firstn 1 L) a b) by exact J. apply adj_in in K. destruct K as (A & B). assert (T : forall x, List.In x (L ++ firstn 1 L) -> List.In x L).
  { intros x I. apply in_app_or in I. destruct I as [I|I]; [exact I|]. destruct L; [destruct I|]. destruct I as [<-|[]]. left. reflexivity. } split; apply T; assumption.
Qed.
(** ** the last of the entered half planes *)
Lemma classic_ex (F : list (R * R)) : (exists g, List.In g F /\ fst g < 0) \/ ~ (exists g, List.In g F /\ fst g < 0).
Proof.
  induction F as [|g F IH]; [right; intros (g & [] & _)|]. destruct (Rlt_dec (fst g) 0) as [L|L]; [left; exists g; split; [left; reflexivity|exact L]|].
  destruct IH as [(h & I & N)|IH]; [left; exists h; split; [right; exact I|exact N]|right]. intros (h & [<-|I] & N); [contradiction|]. apply IH. exists h. split; assumption.
Qed.
Lemma entering : forall F : list (R * R), (forall g, List.In g F -> 0 <= snd g) -> (exists g, List.In g F /\ fst g < 0) ->
  exists s, 0 <= s <= 1 /\ (forall g, List.In g F -> 0 <= (1 - s) * fst g + s * snd g) /\ exists g, List.In g F /\ fst g < 0 /\ (1 - s) * fst g + s * snd g = 0.
Proof.
  induction F as [|[g0 g1] F IH]; intros P (g & I & N); [destruct I|].
  assert (P1 : 0 <= g1) by (apply (P (g0, g1)); left; reflexivity). assert (P' : forall g, List.In g F -> 0 <= snd g) by (intros h J; apply P; right; exact J).
  assert (SZ : g0 < 0 -> exists z, 0 <= z <= 1 /\ (1 - z) * g0 + z * g1 = 0).
  { intros Z. exists (- g0 / (g1 - g0)). split; [split|field; lra]; [apply Rmult_le_pos; [lra|left; apply Rinv_0_lt_compat; lra]|]. apply (Rmult_le_reg_r (g1 - g0)); [lra|]. unfold Rdiv. rewrite Rmult_assoc, Rinv_l by lra. lra. }
  destruct (classic_ex F) as [X|X].
  - destruct (IH P' X) as (s & S & A & (h & Ih & Nh & Zh)). destruct (Rle_or_lt 0 ((1 - s) * g0 + s * g1)) as [Q|Q].
    + exists s. split; [exact S|]. split; [intros k [<-|J]; [exact Q|apply A, J]|]. exists h. split; [right; exact Ih|]. split; assumption.
    + assert (G : g0 < 0). { destruct (Rlt_or_le g0 0) as [G|G]; [exact G|]. assert (0 <= (1 - s) * g0) by (apply Rmult_le_pos; lra). assert (0 <= s * g1) by (apply Rmult_le_pos; lra). lra. }
      destruct (SZ G) as (z & Z1 & Z2). assert (sz : s < z). { destruct (Rlt_or_le s z) as [K|K]; [exact K|]. assert (0 <= (s - z) * (g1 - g0)) by (apply Rmult_le_pos; lra). lra. }
      exists z. split; [exact Z1|]. split.
      * intros k [<-|J]; [cbn [fst snd]; lra|]. specialize (A k J). specialize (P' k J). destruct (Rlt_or_le (fst k) 0) as [K|K].
        -- assert (0 <= (z - s) * (snd k - fst k)) by (apply Rmult_le_pos; lra). lra.
        -- assert (0 <= (1 - z) * fst k) by (apply Rmult_le_pos; lra). assert (0 <= z * snd k) by (apply Rmult_le_pos; lra). lra.
      * exists (g0, g1). split; [left; reflexivity|]. split; [exact G|exact Z2].
  - destruct I as [E|I]; [subst g; cbn in N|exfalso; apply X; exists g; split; assumption]. destruct (SZ N) as (z & Z1 & Z2). exists z. split; [exact Z1|]. split.
    + intros k [<-|J]; [cbn [fst snd]; lra|]. assert (0 <= fst k) by (destruct (Rle_or_lt 0 (fst k)) as [K|K]; [exact K|]; exfalso; apply X; exists k; split; assumption). specialize (P' k J).
      assert (0 <= (1 - z) * fst k) by (apply Rmult_le_pos; lra). assert (0 <= z * snd k) by (apply Rmult_le_pos; lra). lra.
    + exists (g0, g1). split; [left; reflexivity|]. split; [exact N|exact Z2].
Qed.
(** ** a convex loop in a plane *)
Definition side (n a b p : vec3) : R := dot n (cross (vsub b a) (vsub p a)).
Lemma side_mix n a b x y s0 s1 : s0 + s1 = 1 -> side n a b (vadd (vscale s0 x) (vscale s1 y)) = s0 * side n a b x + s1 * side n a b y.
Proof. intros H. unfold side. replace s0 with (1 - s1) by lra. spec_unfold. ring. Qed.
Section Loop.
Variables (o n : vec3) (L : list vec3).
Hypothesis CL : convex_loop o n L.
Lemma hull_half q : convex_hull L q -> dot n (vsub q o) = 0 /\ forall a b, loop_edge L a b -> 0 <= side n a b q.
Proof.
  destruct CL as (_ & (Nz & Pl) & E & _). induction 1 as [q I|x y q _ (X1 & X2) _ (Y1 & Y2) (s & t & (W & W1 & W2) & ->)]; [split; [apply Pl, I|intros a b J; apply E; assumption]|]. unfold comb2. split.
  - replace (dot n (vsub (vadd (vscale s x) (vscale t y)) o)) with (s * dot n (vsub x o) + t * dot n (vsub y o) + (s + t - 1) * dot n o) by (spec_unfold; ring). rewrite X1, Y1. replace (s + t - 1) with 0 by lra. ring.
  - intros a b J. rewrite side_mix by lra. specialize (X2 a b J). specialize (Y2 a b J). assert (0 <= s * side n a b x) by (apply Rmult_le_pos; lra). assert (0 <= t * side n a b y) by (apply Rmult_le_pos; lra). lra.
Qed.
Lemma edge_distinct a b : loop_edge L a b -> a <> b.
Proof.
  destruct CL as (H3 & _ & _ & T). intros J ->. destruct (loop_turn_of_edge L b b H3 J) as (_ & (c & K)). apply T in K. spec_unfold. lra.
Qed.
(** on the line of an edge and inside the loop means on the edge *)
Lemma on_edge a b x : loop_edge L a b -> dot n (vsub x o) = 0 -> (forall a b, loop_edge L a b -> 0 <= side n a b x) -> side n a b x = 0 -> segment a b x.
Proof.
  intros J Px Hx Z. pose proof (edge_distinct a b J) as NE. destruct CL as (H3 & (Nz & Pl) & _ & T). destruct (loop_edge_in _ _ _ J) as (Ia & Ib).
  assert (Da : dot n (vsub a o) = 0) by (apply Pl, Ia). assert (Db : dot n (vsub b o) = 0) by (apply Pl, Ib).
  destruct (cross_plane n (vsub b a) (vsub x a)) as (k & K); [spec_unfold; lra|spec_unfold; lra|exact Nz|].
  assert (N2 : 0 < dot n n) by (destruct (dot_self_nonneg n) as [U|U]; [exact U|]; symmetry in U; apply dot_self_zero in U; contradiction).
  assert (K0 : k = 0). { unfold side in Z. rewrite K in Z. replace (dot n (vscale k n)) with (k * dot n n) in Z by (spec_unfold; ring). apply Rmult_integral in Z. destruct Z; [assumption|lra]. }
  subst k. destruct (cross_zero_parallel (vsub b a) (vsub x a)) as (r & R).
  { intros E. apply NE. apply vec3_ext; [apply (f_equal vx) in E|apply (f_equal vy) in E|apply (f_equal vz) in E]; spec_unfold; lra. }
  { rewrite K. apply vec3_ext; spec_unfold; ring. }
  assert (X : x = vadd (vscale (1 - r) a) (vscale r b)). { apply vec3_ext; [apply (f_equal vx) in R|apply (f_equal vy) in R|apply (f_equal vz) in R]; spec_unfold; lra. }
  destruct (loop_turn_of_edge L a b H3 J) as ((z & Tz) & (c & Tc)). destruct (loop_edge_of_turn _ _ _ _ Tz) as (Jz & _). destruct (loop_edge_of_turn _ _ _ _ Tc) as (_ & Jc).
  pose proof (Hx z a Jz) as S1. pose proof (Hx b c Jc) as S2. rewrite X, side_mix in S1, S2 by lra. apply T in Tz. apply T in Tc. fold (side n z a b) in Tz. fold (side n a b c) in Tc.
  assert (E1 : side n z a a = 0) by (unfold side; spec_unfold; ring). assert (E2 : side n b c b = 0) by (unfold side; spec_unfold; ring). assert (E3 : side n b c a = side n a b c) by (unfold side; spec_unfold; ring).
  rewrite E1 in S1. rewrite E2, E3 in S2. assert (0 <= r) by nra. assert (r <= 1) by nra. exists (1 - r), r. split; [unfold weights2; lra|exact X].
Qed.
(** a segment from outside meets a visible edge before any point of the hull *)
Lemma reach p q : dot n (vsub p o) = 0 -> (exists a b, loop_edge L a b /\ side n a b p < 0) -> convex_hull L q ->
  exists a b x, loop_edge L a b /\ side n a b p < 0 /\ segment a b x /\ dist p x <= dist p q.
Proof.
  intros Pp (a0 & b0 & J0 & V0) Hq. destruct (hull_half q Hq) as (Pq & Sq).
  assert (FE : exists E : list (vec3 * vec3), forall a b, loop_edge L a b <-> List.In (a, b) E).
  { assert (G : forall M : list vec3, exists E : list (vec3 * vec3), forall a b, adj M a b <-> List.In (a, b) E).
    { induction M as [|x M (E & H)]; [exists []; intros a b; split; [intros (p1 & s & E); destruct p1; discriminate|intros []]|]. destruct M as [|y M].
      - exists []. intros a b. split; [intros (p1 & s & E1); destruct p1 as [|? [|? ?]]; discriminate|intros []].
      - exists ((x, y) :: E). intros a b. split.
        + intros (p1 & s & E1). destruct p1 as [|w p1]; cbn in E1; [injection E1 as -> -> _; left; reflexivity|]. injection E1 as -> E1. right. apply H. exists p1, s. exact E1.
        + intros [K|K]; [injection K as -> ->; exists [], M; reflexivity|]. apply adj_cons, H, K. }
    exact (G (L ++ firstn 1 L)). }
  destruct FE as (E & HE). destruct (entering (map (fun e => (side n (fst e) (snd e) p, side n (fst e) (snd e) q)) E)) as (s & S & A & (g & Ig & Ng & Zg)).
  { intros g I. apply in_map_iff in I. destruct I as ((a & b) & <- & I). cbn [fst snd]. apply Sq, HE, I. }
  { exists (side n a0 b0 p, side n a0 b0 q). split; [apply in_map_iff; exists (a0, b0); split; [reflexivity|apply HE, J0]|exact V0]. }
  apply in_map_iff in Ig. destruct Ig as ((a & b) & <- & I). cbn [fst snd] in *. apply HE in I. set (x := vadd (vscale (1 - s) p) (vscale s q)).
  exists a, b, x. split; [exact I|]. split; [exact Ng|]. split.
  - apply on_edge; [exact I| | |].
    + unfold x. replace (dot n (vsub (vadd (vscale (1 - s) p) (vscale s q)) o)) with ((1 - s) * dot n (vsub p o) + s * dot n (vsub q o)) by (spec_unfold; ring). rewrite Pp, Pq. ring.
    + intros u v J. unfold x. rewrite side_mix by lra. apply HE in J. apply (A (side n u v p, side n u v q)). apply in_map_iff. exists (u, v). split; [reflexivity|exact J].
    + unfold x. rewrite side_mix by lra. exact Zg.
  - unfold dist. replace (vsub p x) with (vscale s (vsub p q)) by (unfold x; apply vec3_ext; spec_unfold; ring). rewrite norm_scale, Rabs_right by lra. pose proof (norm_nonneg (vsub p q)). nra.
Qed.
End Loop.

(* VoronoiGeom.v -- plane geometry of the region above the beach line: which points of the
   bisector of two sites lie there, and where two sites are both nearest. *)
From stdpp Require Import base list.
From Coq Require Import ZArith Reals Lra Lia Psatz.
From Verif Require Import Arith Geom RArith GeomReal AngleReal EdgeReal Envelope.
Local Open Scope R_scope.

(* how far (times the length of dir i j) z' lies ahead of z in the direction dir i j *)
Definition ahead (i j z z' : rpt) : R := (fst z' - fst z) * fst (dir i j) + (snd z' - snd z) * snd (dir i j).

Lemma ahead_swap i j z z' : ahead j i z z' = - ahead i j z z'.
Proof. destruct i, j, z, z'. unfold ahead, dir; cbn [fst snd]. ring. Qed.
Lemma ahead_back i j z z' : ahead i j z' z = - ahead i j z z'.
Proof. destruct i, j, z, z'. unfold ahead, dir; cbn [fst snd]. ring. Qed.
Lemma ahead_move i j z s : ahead i j z (move z s (dir i j)) = s * dist2 i j.
Proof. destruct i, j, z. unfold ahead, move, dir, dist2; cbn [fst snd]. ring. Qed.
Lemma dist2_pos i j : i <> j -> 0 < dist2 i j.
Proof.
  intros N. destruct i as [a b], j as [c d]. unfold dist2; cbn [fst snd].
  destruct (Req_dec a c) as [->|Ha]; [destruct (Req_dec b d) as [->|Hb]; [contradiction|]|].
  - assert (0 < (b - d) * (b - d)) by (apply Rsqr_pos_lt; lra). nra.
  - assert (0 < (a - c) * (a - c)) by (apply Rsqr_pos_lt; lra). pose proof (sq_nonneg (b - d)). lra.
Qed.
Lemma dist2_nonneg i j : 0 <= dist2 i j.
Proof. apply Rplus_le_le_0_compat; apply sq_nonneg. Qed.
Lemma ahead_zero i j z z' : i <> j -> dist2 i z = dist2 j z -> dist2 i z' = dist2 j z' -> ahead i j z z' = 0 -> z' = z.
Proof.
  intros N E E' H. destruct (same_line i j z z' N E E') as [s ->]. rewrite ahead_move in H. pose proof (dist2_pos i j N).
  assert (s = 0) as -> by (apply Rmult_integral in H as [|]; lra). destruct z, i, j. unfold move, dir; cbn [fst snd]. f_equal; ring.
Qed.
Lemma cross3_swap i j q : cross3 j i q = - cross3 i j q.
Proof. destruct i, j, q. unfold cross3; cbn [fst snd]. ring. Qed.

(* the lower the line, the more lies above the beach line *)
Lemma out_mono p l l' z : l' <= l -> l <= snd z -> out p l' z <= out p l z.
Proof. unfold out. intros. assert ((snd z - l) * (snd z - l) <= (snd z - l') * (snd z - l')) by nra. lra. Qed.
Lemma out_same i j l z : dist2 i z = dist2 j z -> out i l z = out j l z.
Proof. unfold out. lra. Qed.

(* on the bisector nothing above the beach line lies ahead of the meeting point *)
Lemma upper i j l w z : i <> j -> l < snd i \/ l < snd j -> edge_at i j l w -> dist2 i z = dist2 j z -> out i l z <= 0 -> ahead i j w z <= 0.
Proof.
  intros N L (W1 & W2 & W3 & W4) E O. assert (Ew : dist2 i w = dist2 j w) by (unfold out in *; lra).
  destruct (same_line i j w z N Ew E) as [s ->]. rewrite ahead_move. pose proof (dist2_pos i j N) as P.
  destruct (Rle_lt_dec s 0) as [Hs|Hs]; [nra|]. exfalso.
  assert (X : out i l (move w s (dir i j)) = out i l w + 2 * s * (- cross3 i j (fst w, l)) + s * s * ((snd j - snd i) * (snd j - snd i))).
  { destruct i, j, w. unfold out, move, dir, dist2, cross3; cbn [fst snd]. ring. }
  rewrite W2 in X. set (T := - cross3 i j (fst w, l)) in *. assert (HT : 0 <= T) by (unfold T; lra).
  pose proof (sq_nonneg (snd j - snd i)) as HQ. assert (0 <= s * s * ((snd j - snd i) * (snd j - snd i))) by (apply Rmult_le_pos; nra).
  assert (0 <= 2 * s * T) by (apply Rmult_le_pos; lra).
  assert (T0 : s * T = 0) by lra. apply Rmult_integral in T0 as [|T0]; [lra|].
  assert (Q0 : (s * s) * ((snd j - snd i) * (snd j - snd i)) = 0) by lra. apply Rmult_integral in Q0 as [Q0|Q0]; [nra|].
  assert (D0 : snd j = snd i) by (apply Rmult_integral in Q0 as [|]; lra).
  unfold T, cross3 in T0; cbn [fst snd] in T0. rewrite D0 in T0. assert (X0 : (fst j - fst i) * (l - snd i) = 0) by lra.
  apply Rmult_integral in X0 as [X0|X0]; [|lra]. apply N. destruct i, j; cbn [fst snd] in *. f_equal; lra.
Qed.

(* the line for which the circle around z through p touches it *)
Lemma touch p z l : p <> z -> l < snd z -> out p l z <= 0 -> exists m, l <= m < snd z /\ out p m z = 0.
Proof.
  intros N L O. set (r := sqrt (dist2 p z)). assert (Hr : r * r = dist2 p z) by (apply sqrt_sqrt, dist2_nonneg).
  assert (Hr0 : 0 < r) by (apply sqrt_lt_R0, dist2_pos, N). exists (snd z - r). unfold out in *. split; [|replace (snd z - (snd z - r)) with r by ring; lra].
  split; [|lra]. assert (r <= snd z - l); [|lra]. apply Rsqr_incr_0_var; unfold Rsqr; lra.
Qed.
Lemma touch_edge i j l z : l < snd z -> out i l z = 0 -> out j l z = 0 -> edge_at i j l z \/ edge_at j i l z.
Proof.
  intros H1 H2 H3. destruct (Rle_lt_dec (cross3 i j (fst z, l)) 0) as [C|C]; [left|right].
  - done.
  - split; [done|]. split; [done|]. split; [done|]. rewrite cross3_swap. lra.
Qed.

(* every x lies under some arc *)
Lemma under_exists ls l x : ls <> [] -> exists k a, under ls l k a x.
Proof.
  intros HN. destruct ls as [|a0 ls0] eqn:E; [done|]. clear HN.
  cut (forall n, (n <= length ls0)%nat -> (exists k a, (k <= n)%nat /\ under (a0 :: ls0) l k a x) \/
         (forall j a b, (j < n)%nat -> (a0 :: ls0) !! j = Some a -> (a0 :: ls0) !! S j = Some b -> gi_x a b l <= x)).
  { intros H. destruct (H (length ls0) ltac:(lia)) as [(k & a & _ & U)|U]; [eauto|].
    destruct (lookup_lt_is_Some_2 (a0 :: ls0) (length ls0)) as [a Ha]; [simpl; lia|]. exists (length ls0), a. split; [done|]. split.
    - intros j b Ej Hb. apply (U j); [lia|done|by rewrite <- Ej].
    - intros b Hb. apply lookup_lt_Some in Hb. simpl in Hb. lia. }
  induction n as [|n IH]; intros Hn; [right; intros; lia|].
  destruct (IH ltac:(lia)) as [(k & a & Hk & U)|U]; [left; exists k, a; split; [lia|done]|].
  destruct (lookup_lt_is_Some_2 (a0 :: ls0) n) as [a Ha]; [simpl; lia|]. destruct (lookup_lt_is_Some_2 (a0 :: ls0) (S n)) as [b Hb]; [simpl; lia|].
  destruct (Rle_lt_dec x (gi_x a b l)) as [Hx|Hx].
  - left. exists n, a. split; [lia|]. split; [done|]. split.
    + intros j c Ej Hc. apply (U j); [lia|done|by rewrite <- Ej].
    + intros c Hc. assert (c = b) as -> by congruence. done.
  - right. intros j c d Hj Hc Hd. destruct (decide (j = n)) as [->|]; [|apply (U j); [lia|done|done]].
    assert (c = a) as -> by congruence. assert (d = b) as -> by congruence. lra.
Qed.

(* two parabolas that touch the same circle from outside cross there *)
Lemma cross_nonzero i j l z : i <> j -> l < snd i -> l < snd j -> l < snd z -> out i l z = 0 -> out j l z = 0 -> cross3 i j (fst z, l) <> 0.
Proof.
  intros N Li Lj Lz Oi Oj. destruct (touch_edge i j l z Lz Oi Oj) as [E|E].
  - pose proof (edge_strict _ _ _ _ E N Li Lj). lra.
  - apply edge_strict in E; [|congruence|done|done]. rewrite cross3_swap in E. lra.
Qed.
Lemma along i j l x d : l < snd i -> out j l (x + d, para i l (x + d)) =
  out j l (x, para i l x) + d * (2 * cross3 i j (x, l) / (snd i - l)) + d * d * ((snd i - snd j) / (snd i - l)).
Proof. intros H. destruct i as [a b], j as [c e]. unfold out, dist2, para, cross3; cbn [fst snd] in *. field. lra. Qed.
Lemma dips (al be m : R) : al <> 0 -> 0 < m -> exists d, - m < d < m /\ d * al + d * d * be < 0.
Proof.
  intros Ha Hm. set (t := Rmin (m / 2) (Rabs al / (2 * (Rabs be + 1)))).
  pose proof (Rabs_pos_lt al Ha) as A. pose proof (Rabs_pos be) as B.
  assert (0 < Rabs al / (2 * (Rabs be + 1))) by (apply Rdiv_lt_0_compat; lra).
  assert (T : 0 < t) by (apply Rmin_glb_lt; lra). assert (T1 : t <= m / 2) by apply Rmin_l. assert (T2 : t <= Rabs al / (2 * (Rabs be + 1))) by apply Rmin_r.
  assert (T3 : t * (Rabs be + 1) <= Rabs al / 2).
  { replace (Rabs al / 2) with (Rabs al / (2 * (Rabs be + 1)) * (Rabs be + 1)) by (field; lra). apply Rmult_le_compat_r; lra. }
  assert (BB : - Rabs be <= be <= Rabs be) by (pose proof (Rle_abs be); pose proof (Rle_abs (- be)); rewrite Rabs_Ropp in *; lra).
  assert (T4 : t * Rabs be < Rabs al) by nra. assert (TT : 0 < t * t) by (apply Rmult_lt_0_compat; lra).
  assert (Q : t * t * be <= t * (t * Rabs be)) by nra. assert (Q2 : t * (t * Rabs be) < t * Rabs al) by (apply Rmult_lt_compat_l; lra).
  destruct (Rle_lt_dec 0 al) as [P|P].
  - exists (- t). split; [lra|]. rewrite (Rabs_pos_eq al) in * by lra. replace (- t * - t) with (t * t) by ring. lra.
  - exists t. split; [lra|]. rewrite (Rabs_left al) in * by lra. lra.
Qed.

(* a point of the beach line where another site is equally near is a meeting point of two
   neighbouring arcs *)
Lemma on_arc_meets l H ls k a x r : beach_ok l H ls -> under ls l k a x -> (forall p, p ∈ H -> l < snd p) -> r ∈ H -> r <> a ->
  out r l (x, para a l x) = 0 ->
  (exists j b, k = S j /\ ls !! j = Some b /\ edge_at b a l (x, para a l x)) \/ (exists b, ls !! S k = Some b /\ edge_at a b l (x, para a l x)).
Proof.
  intros BO U HL Hr N O. pose proof U as (Ha & UL & UR). pose proof (HL _ (b_sub _ _ _ BO _ _ Ha)) as La.
  assert (ML : forall j b, k = S j -> ls !! j = Some b -> gi_x b a l = x -> edge_at b a l (x, para a l x)).
  { intros j b -> Hb E. destruct (b_edge_at _ _ _ _ _ _ BO Hb Ha) as (z & Hz & Ez). pose proof (edge_y_right _ _ _ _ Hz La) as Ey.
    replace (x, para a l x) with z; [done|]. destruct z as [zx zy]. cbn [fst snd] in *. congruence. }
  assert (MR : forall b, ls !! S k = Some b -> gi_x a b l = x -> edge_at a b l (x, para a l x)).
  { intros b Hb E. destruct (b_edge_at _ _ _ _ _ _ BO Ha Hb) as (z & Hz & Ez). pose proof (edge_y_left _ _ _ _ Hz La) as Ey.
    replace (x, para a l x) with z; [done|]. destruct z as [zx zy]. cbn [fst snd] in *. congruence. }
  assert (DL : (exists j b, k = S j /\ ls !! j = Some b /\ gi_x b a l = x) \/ exists m, 0 < m /\ forall j b, k = S j -> ls !! j = Some b -> gi_x b a l <= x - m).
  { destruct k as [|j]; [right; exists 1; split; [lra|done]|]. destruct (ls !! j) as [b|] eqn:Hb; [|right; exists 1; split; [lra|intros ? ? [= <-]; congruence]].
    specialize (UL j b eq_refl Hb). destruct (Req_dec (gi_x b a l) x) as [E|E]; [left; eauto|right]. exists (x - gi_x b a l). split; [lra|].
    intros j' b' [= <-] Hb'. assert (b' = b) as -> by congruence. lra. }
  assert (DR : (exists b, ls !! S k = Some b /\ gi_x a b l = x) \/ exists m, 0 < m /\ forall b, ls !! S k = Some b -> x + m <= gi_x a b l).
  { destruct (ls !! S k) as [b|] eqn:Hb; [|right; exists 1; split; [lra|done]].
    specialize (UR b eq_refl). destruct (Req_dec (gi_x a b l) x) as [E|E]; [left; eauto|right]. exists (gi_x a b l - x). split; [lra|].
    intros b' [= <-]. lra. }
  destruct DL as [(j & b & Ek & Hb & E)|(m1 & M1 & DL)]; [left; exists j, b; eauto|].
  destruct DR as [(b & Hb & E)|(m2 & M2 & DR)]; [right; exists b; eauto|]. exfalso.
  assert (C : cross3 a r (x, l) <> 0).
  { apply (cross_nonzero a r l (x, para a l x)); [congruence|done|by apply HL|by apply para_above| |done]. rewrite out_para by done. ring. }
  assert (M : 0 < Rmin m1 m2) by (by apply Rmin_glb_lt). pose proof (Rmin_l m1 m2). pose proof (Rmin_r m1 m2).
  destruct (dips (2 * cross3 a r (x, l) / (snd a - l)) ((snd a - snd r) / (snd a - l)) (Rmin m1 m2)) as (d & Hd & Hneg); [|done|].
  { intros E. apply C. apply (Rmult_eq_reg_r (2 / (snd a - l))); [|apply Rgt_not_eq, Rdiv_lt_0_compat; lra].
    rewrite Rmult_0_l. rewrite <- E. field. lra. }
  assert (U' : under ls l k a (x + d)).
  { split; [done|]. split; [intros j b E1 E2; specialize (DL j b E1 E2); lra|intros b E1; specialize (DR b E1); lra]. }
  pose proof (b_low _ _ _ BO k a (x + d) U' La r Hr) as B. rewrite along in B by done. rewrite O in B. lra.
Qed.

(* EdgeReal.v -- plane geometry of a sweep: the points that are as far from two sites as
   from the sweep line, in exact arithmetic. *)
From Coq Require Import ZArith Reals Lra Lia Psatz.
From Verif Require Import Arith Geom RArith GeomReal AngleReal.
Local Open Scope R_scope.

(* how far the site p is outside the circle around z that touches the line y = l from above *)
Definition out (p : rpt) (l : R) (z : rpt) : R := dist2 p z - (snd z - l) * (snd z - l).
(* the direction in which the circles through i and j move *)
Definition dir (i j : rpt) : rpt := (snd j - snd i, fst i - fst j).
Definition move (z : rpt) (s : R) (u : rpt) : rpt := (fst z + s * fst u, snd z + s * snd u).

(* z is where the arcs of i (left) and j (right) meet when the sweep line is at l: the circle
   around z touches the line, passes through i and j, and the touching point lies before the
   line from i to j *)
Definition edge_at (i j : rpt) (l : R) (z : rpt) : Prop :=
  l < snd z /\ out i l z = 0 /\ out j l z = 0 /\ cross3 i j (fst z, l) <= 0.
(* a pair of sites that can be neighbours when the sweep line is at l *)
Definition pair_ok (i j : rpt) (l : R) : Prop :=
  l <= snd i /\ l <= snd j /\ (l < snd i \/ l < snd j) /\ i <> j /\ (snd i = snd j -> fst i < fst j).

Lemma out_para p l x : l < snd p -> forall y, out p l (x, y) = 2 * (snd p - l) * (para p l x - y).
Proof. intros H y. destruct p as [a b]. unfold out, dist2, para; cbn [fst snd] in *. field. lra. Qed.
Lemma out_para_le p l x y : l < snd p -> (0 <= out p l (x, y) <-> y <= para p l x).
Proof. intros H. rewrite out_para by assumption. split; intros; nra. Qed.
Lemma out_para_lt p l x y : l < snd p -> (out p l (x, y) < 0 <-> para p l x < y).
Proof. intros H. rewrite out_para by assumption. split; intros; nra. Qed.
Lemma out_para_eq p l x y : l < snd p -> (out p l (x, y) = 0 <-> y = para p l x).
Proof. intros H. rewrite out_para by assumption. split; intros; nra. Qed.
Lemma out_level p l z : snd p = l -> out p l z = (fst z - fst p) * (fst z - fst p).
Proof. intros <-. unfold out, dist2. ring. Qed.
Lemma out_below p l z : snd p <= l -> l < snd z -> 0 <= out p l z.
Proof.
  intros H1 H2. destruct p as [a b], z as [x y]. unfold out, dist2; cbn [fst snd] in *.
  pose proof (sq_nonneg (a - x)). assert (0 <= (l - b) * (2 * y - l - b)) by (apply Rmult_le_pos; lra). lra.
Qed.
Lemma out_below_eq p l z : snd p <= l -> l < snd z -> out p l z = 0 -> p = (fst z, l).
Proof.
  intros H1 H2. destruct p as [a b], z as [x y]. unfold out, dist2; cbn [fst snd] in *. intros H3.
  pose proof (sq_nonneg (a - x)). assert (0 <= (l - b) * (2 * y - l - b)) by (apply Rmult_le_pos; lra).
  assert ((l - b) * (2 * y - l - b) = 0) by lra. assert (a - x = 0) by (apply Rsqr_0_uniq; unfold Rsqr; lra).
  assert (b = l). { apply Rmult_integral in H4 as [|]; lra. } f_equal; lra.
Qed.
Lemma not_level (i j : rpt) l : i <> j -> snd i = l -> snd j = l -> fst i <> fst j.
Proof. intros H E1 E2 E. apply H. destruct i, j; cbn [fst snd] in *. f_equal; lra. Qed.

(* two centres of circles through i and j lie on a line in direction [dir] *)
Lemma same_line i j z z' : i <> j -> dist2 i z = dist2 j z -> dist2 i z' = dist2 j z' -> exists s, z' = move z s (dir i j).
Proof.
  destruct i as [a b], j as [c d], z as [x y], z' as [x' y']. unfold dist2, move, dir; cbn [fst snd]. intros N E1 E2.
  assert (P : 0 < (c - a) * (c - a) + (d - b) * (d - b)).
  { destruct (Req_dec c a) as [->|Hc]; [destruct (Req_dec d b) as [->|Hd]|].
    - contradiction.
    - pose proof (Rsqr_pos_lt (d - b)). unfold Rsqr in *. pose proof (sq_nonneg (a - a)). assert (d - b <> 0) by lra. specialize (H H1). lra.
    - pose proof (Rsqr_pos_lt (c - a)). unfold Rsqr in *. pose proof (sq_nonneg (d - b)). assert (c - a <> 0) by lra. specialize (H H1). lra. }
  set (q := (c - a) * (c - a) + (d - b) * (d - b)) in *.
  assert (E : (c - a) * (x' - x) + (d - b) * (y' - y) = 0) by lra.
  exists (((d - b) * (x' - x) - (c - a) * (y' - y)) / q). f_equal; apply (Rmult_eq_reg_r q); try lra.
  - replace ((x + ((d - b) * (x' - x) - (c - a) * (y' - y)) / q * (d - b)) * q) with (x * q + ((d - b) * (x' - x) - (c - a) * (y' - y)) * (d - b)) by (field; lra).
    replace (y' - y) with (y' - y) by ring. unfold q. 
    transitivity (x * ((c - a) * (c - a) + (d - b) * (d - b)) + (d - b) * (d - b) * (x' - x) - (c - a) * ((d - b) * (y' - y))).
    + replace ((d - b) * (y' - y)) with (- ((c - a) * (x' - x))) by lra. ring.
    + ring.
  - replace ((y + ((d - b) * (x' - x) - (c - a) * (y' - y)) / q * (a - c)) * q) with (y * q + ((d - b) * (x' - x) - (c - a) * (y' - y)) * (a - c)) by (field; lra).
    unfold q.
    transitivity (y * ((c - a) * (c - a) + (d - b) * (d - b)) + (c - a) * (c - a) * (y' - y) - (d - b) * ((c - a) * (x' - x))).
    + replace ((c - a) * (x' - x)) with (- ((d - b) * (y' - y))) by lra. ring.
    + ring.
Qed.
(* along that line the power of a point changes at a constant rate *)
Lemma power_move i j q z s : dist2 q (move z s (dir i j)) - dist2 i (move z s (dir i j)) = dist2 q z - dist2 i z + 2 * s * cross3 i j q.
Proof. destruct i, j, q, z. unfold dist2, move, dir, cross3; cbn [fst snd]. ring. Qed.
Lemma equi_move i j z s : dist2 i z = dist2 j z -> dist2 i (move z s (dir i j)) = dist2 j (move z s (dir i j)).
Proof. destruct i, j, z. unfold dist2, move, dir; cbn [fst snd]. intros; lra. Qed.
Lemma out_power p i l z : out i l z = 0 -> out p l z = dist2 p z - dist2 i z.
Proof. unfold out. lra. Qed.
Lemma out_move i j p l l' z s : out i l z = 0 -> out i l' (move z s (dir i j)) = 0 ->
  out p l' (move z s (dir i j)) = out p l z + 2 * s * cross3 i j p.
Proof. intros H1 H2. rewrite (out_power p i l z H1), (out_power p i l' _ H2). apply power_move. Qed.
Lemma out_bottom l z : out (fst z, l) l z = 0.
Proof. unfold out, dist2; cbn [fst snd]. ring. Qed.
Lemma out_pos (w : rpt) l z : snd w <= l -> l < snd z -> w <> (fst z, l) -> 0 < out w l z.
Proof.
  intros H1 H2 H3. destruct (Req_dec (out w l z) 0) as [E|E]; [destruct H3; apply out_below_eq; assumption|].
  pose proof (out_below w l z H1 H2). lra.
Qed.

(* ---------- the meeting point exists and is unique ---------- *)
Lemma edge_strict i j l z : edge_at i j l z -> i <> j -> l < snd i -> l < snd j -> cross3 i j (fst z, l) < 0.
Proof.
  intros (H1 & H2 & H3 & H4) N Hi Hj. destruct (Req_dec (cross3 i j (fst z, l)) 0) as [E|E]; [|lra]. exfalso.
  revert E. apply (cocircular_cross i j (fst z, l) z (snd z - l)); try assumption.
  - unfold out in H2. lra.
  - unfold out in H3. lra.
  - unfold dist2; cbn [fst snd]. ring.
  - intros E. rewrite <- E in Hi. cbn [snd] in Hi. lra.
  - intros E. rewrite <- E in Hj. cbn [snd] in Hj. lra.
Qed.

Lemma edge_exists i j l : pair_ok i j l -> exists y, edge_at i j l (gi_x i j l, y).
Proof.
  intros (Hi & Hj & Hij & N & Hlev). unfold gi_x.
  destruct (Req_EM_T (snd i) (snd j)) as [E|E].
  - assert (Hi' : l < snd i) by (destruct Hij; lra). assert (Hj' : l < snd j) by lra. specialize (Hlev E).
    exists (para i l ((fst i + fst j) / 2)). split; [apply para_above; assumption|]. split; [rewrite out_para by assumption; ring|].
    split.
    + rewrite out_para by assumption. replace (para j l ((fst i + fst j) / 2)) with (para i l ((fst i + fst j) / 2)); [ring|].
      unfold para. rewrite E. field. lra.
    + unfold cross3; cbn [fst snd]. rewrite E. nra.
  - destruct (Req_EM_T (snd i) l) as [El|El].
    { assert (Hj' : l < snd j) by lra. exists (para j l (fst i)). split; [apply para_above; assumption|].
      split; [rewrite out_level by assumption; cbn [fst]; ring|]. split; [rewrite out_para by assumption; ring|].
      unfold cross3; cbn [fst snd]. rewrite El. right. ring. }
    destruct (Req_EM_T (snd j) l) as [Ej|Ej].
    { assert (Hi' : l < snd i) by lra. exists (para i l (fst j)). split; [apply para_above; assumption|].
      split; [rewrite out_para by assumption; ring|]. split; [rewrite out_level by assumption; cbn [fst]; ring|].
      unfold cross3; cbn [fst snd]. rewrite Ej. right. ring. }
    assert (Hi' : l < snd i) by lra. assert (Hj' : l < snd j) by lra.
    exists (para i l (cross_x i j l)). split; [apply para_above; assumption|]. split; [rewrite out_para by assumption; ring|].
    split; [rewrite out_para by assumption; rewrite cross_same by assumption; ring|].
    pose proof (sqrt_pos (disc i j l)).
    replace (cross3 i j (fst (cross_x i j l, para i l (cross_x i j l)), l)) with (- (sqrt (disc i j l) / 2)); [lra|].
    unfold cross3, cross_x; cbn [fst snd]. field. lra.
Qed.

(* the lower the line, the further along *)
Lemma edge_mono i j l l' z z' : i <> j -> edge_at i j l z -> edge_at i j l' z' -> l' <= l ->
  exists s, z' = move z s (dir i j) /\ 0 <= s /\ (l' < l -> 0 < s).
Proof.
  intros N (H1 & H2 & H3 & H4) (H1' & H2' & H3' & H4') Hl.
  destruct (same_line i j z z' N) as [s Es]; [unfold out in *; lra|unfold out in *; lra|]. exists s. split; [assumption|].
  set (w := (fst z, l)) in *. set (w' := (fst z', l')) in *.
  assert (P1 : 0 = out w' l z + 2 * s * cross3 i j w').
  { rewrite <- (out_move i j w' l l' z s H2); rewrite <- Es; [|assumption]. symmetry. apply out_bottom. }
  assert (P2 : out w l' z' = 2 * s * cross3 i j w).
  { rewrite Es. rewrite (out_move i j w l l' z s H2) by (rewrite <- Es; assumption). unfold w at 1. rewrite out_bottom. ring. }
  assert (Q1 : 0 <= out w' l z) by (apply out_below; cbn [snd w']; lra).
  destruct (Req_dec (out w' l z) 0) as [E|E].
  - apply out_below_eq in E; [|cbn [snd w']; lra|assumption].
    unfold w' in E. injection E as Ex El. split; [|lra].
    (* same bottom, same line *)
    destruct (Rle_lt_dec 0 s) as [|Hs]; [assumption|]. exfalso. subst l'.
    assert (Ez : z' = z).
    { destruct (Req_dec (snd i) (snd j)) as [Eij|Eij].
      - destruct i as [a b], j as [c d], z as [x y], z' as [x' y']. unfold out, dist2 in *; cbn [fst snd] in *. subst x' d.
        f_equal. assert (a <> c) by (intros ->; apply N; reflexivity).
        destruct (Req_dec b l) as [Eb|Eb].
        + subst b. assert ((a - x) * (a - x) = 0) by lra. assert ((c - x) * (c - x) = 0) by lra.
          assert (a - x = 0) by (apply Rsqr_0_uniq; unfold Rsqr; lra). assert (c - x = 0) by (apply Rsqr_0_uniq; unfold Rsqr; lra). lra.
        + apply (Rmult_eq_reg_r (b - l)); lra.
      - assert (s * (snd j - snd i) = 0). { rewrite Es in Ex. unfold move, dir in Ex; cbn [fst snd] in Ex. lra. }
        apply Rmult_integral in H as [|]; lra. }
    rewrite Ez in Es. unfold move, dir in Es. destruct z as [x y], i as [a b], j as [c d]. cbn [fst snd] in *. injection Es as X Y.
    apply N. f_equal.
    + assert (s * (a - c) = 0) by lra. apply Rmult_integral in H as [|]; lra.
    + assert (s * (d - b) = 0) by lra. apply Rmult_integral in H as [|]; lra.
  - assert (2 * s * cross3 i j w' < 0) by lra. assert (0 < s) by nra. split; [lra|auto].
Qed.
Lemma edge_unique i j l z z' : i <> j -> edge_at i j l z -> edge_at i j l z' -> z' = z.
Proof.
  intros N H H'. destruct (edge_mono i j l l z z' N H H') as (s & Es & Hs & _); [lra|].
  destruct (edge_mono i j l l z' z N H' H) as (s' & Es' & Hs' & _); [lra|].
  rewrite Es' in Es at 1. assert (E : z' = z).
  { destruct z as [x y], z' as [x' y'], i as [a b], j as [c d]. unfold move, dir in *; cbn [fst snd] in *. injection Es' as X Y. injection Es as X' Y'.
    assert ((s + s') * (d - b) = 0) by lra. assert ((s + s') * (a - c) = 0) by lra.
    destruct (Req_dec (s + s') 0) as [E|E].
    - assert (s = 0) by lra. assert (s' = 0) by lra. subst s s'. f_equal; lra.
    - apply Rmult_integral in H0 as [|]; [lra|]. apply Rmult_integral in H1 as [|]; [lra|].
      exfalso. apply N. f_equal; lra. }
  exact E.
Qed.

Lemma edge_x i j l z : pair_ok i j l -> edge_at i j l z -> fst z = gi_x i j l.
Proof.
  intros HP H. destruct (edge_exists i j l HP) as [y Hy]. pose proof HP as (_ & _ & _ & N & _).
  rewrite (edge_unique i j l _ z N Hy H). reflexivity.
Qed.
Lemma edge_y_left i j l z : edge_at i j l z -> l < snd i -> snd z = para i l (fst z).
Proof. intros (_ & H & _) Hi. destruct z as [x y]. apply out_para_eq in H; assumption. Qed.
Lemma edge_y_right i j l z : edge_at i j l z -> l < snd j -> snd z = para j l (fst z).
Proof. intros (_ & _ & H & _) Hi. destruct z as [x y]. apply out_para_eq in H; assumption. Qed.

(* the points between two positions of the meeting point are its positions for the lines
   in between *)
Lemma edge_between i j l0 l1 z0 s1 s : i <> j -> edge_at i j l0 z0 -> edge_at i j l1 (move z0 s1 (dir i j)) -> l1 <= l0 -> 0 <= s <= s1 ->
  exists l, l1 <= l <= l0 /\ edge_at i j l (move z0 s (dir i j)).
Proof.
  intros N H0 H1 Hl Hs. pose proof H0 as (A1 & A2 & A3 & A4). pose proof H1 as (B1 & B2 & B3 & B4).
  set (z1 := move z0 s1 (dir i j)) in *. set (z := move z0 s (dir i j)).
  set (r := sqrt (dist2 i z)). assert (Hd : 0 <= dist2 i z) by (apply Rplus_le_le_0_compat; apply sq_nonneg).
  assert (Hr : r * r = dist2 i z) by (apply sqrt_sqrt; assumption). assert (Hr0 : 0 <= r) by apply sqrt_pos.
  set (l := snd z - r). set (w := (fst z, l)).
  assert (Oi : out i l z = 0) by (unfold out, l; replace (snd z - (snd z - r)) with r by ring; lra).
  assert (Oj : out j l z = 0).
  { unfold out, l. replace (snd z - (snd z - r)) with r by ring. rewrite Hr. unfold z. rewrite <- equi_move; [ring|]. unfold out in *; lra. }
  (* the lowest point of the first circle lies in the circle around z *)
  assert (P0 : out (fst z0, l0) l z <= 0).
  { unfold z. rewrite (out_move i j (fst z0, l0) l0 l z0 s A2) by exact Oi. rewrite out_bottom. nra. }
  assert (L0 : l <= l0).
  { unfold out, dist2 in P0; cbn [fst snd] in P0. replace (snd z - l) with r in P0 by (unfold l; ring).
    destruct (Rle_lt_dec l l0) as [|L]; [assumption|]. exfalso.
    assert (snd z - l0 > r) by (unfold l in L; lra). pose proof (sq_nonneg (fst z0 - fst z)).
    assert (r * r < (l0 - snd z) * (l0 - snd z)) by nra. lra. }
  assert (Hrp : 0 < r).
  { destruct (Req_dec r 0) as [E|E]; [|lra]. exfalso. rewrite E in Hr.
    assert (Hj0 : dist2 j z = 0) by (unfold out in Oj; replace (snd z - l) with r in Oj by (unfold l; ring); rewrite E in Oj; lra).
    assert (forall p, dist2 p z = 0 -> p = z).
    { intros p. unfold dist2. intros Hp. pose proof (sq_nonneg (fst p - fst z)). pose proof (sq_nonneg (snd p - snd z)).
      assert (fst p - fst z = 0) by (apply Rsqr_0_uniq; unfold Rsqr; lra). assert (snd p - snd z = 0) by (apply Rsqr_0_uniq; unfold Rsqr; lra).
      destruct p, z; cbn [fst snd] in *; f_equal; lra. }
    apply N. rewrite (H i), (H j); [reflexivity|assumption|lra]. }
  assert (Cw : cross3 i j w <= 0).
  { assert (0 <= out w l0 z0) by (apply out_below; [exact L0|assumption]).
    assert (E : 0 = out w l0 z0 + 2 * s * cross3 i j w).
    { rewrite <- (out_move i j w l0 l z0 s A2) by exact Oi. fold z. symmetry. apply out_bottom. }
    destruct (Req_dec s 0) as [->|Es].
    - assert (Ez : z = z0) by (unfold z, move; destruct z0; cbn [fst snd]; f_equal; ring).
      assert (l = l0).
      { unfold out in A2, Oi. rewrite Ez in Oi. replace (snd z0 - l) with r in Oi by (unfold l; rewrite Ez; ring).
        assert (r * r = (snd z0 - l0) * (snd z0 - l0)) by lra. assert (r = snd z0 - l0) by nra. unfold l. rewrite Ez. lra. }
      unfold w. rewrite Ez, H2. exact A4.
    - assert (0 < s) by lra. nra. }
  assert (L1 : l1 <= l).
  { assert (out w l1 z1 <= 0).
    { replace z1 with (move z (s1 - s) (dir i j)).
      2:{ unfold z1, z, move; cbn [fst snd]; f_equal; ring. }
      rewrite (out_move i j w l l1 z (s1 - s) Oi).
      - unfold w at 1. rewrite out_bottom. nra.
      - replace (move z (s1 - s) (dir i j)) with z1; [exact B2|]. unfold z1, z, move; cbn [fst snd]; f_equal; ring. }
    destruct (Rle_lt_dec l1 l) as [|L]; [assumption|]. exfalso.
    assert (0 < out w l1 z1). { apply out_pos; [cbn [snd w]; lra|assumption|]. unfold w. intros [= _ E]. lra. } lra. }
  exists l. split; [lra|]. split; [unfold l; lra|]. split; [exact Oi|]. split; [exact Oj|exact Cw].
Qed.

(* a site on both ends' outside is outside in between *)
Lemma out_between i j p l0 l1 l z0 s1 s : out i l0 z0 = 0 -> out i l1 (move z0 s1 (dir i j)) = 0 -> out i l (move z0 s (dir i j)) = 0 ->
  0 <= s <= s1 -> 0 <= out p l0 z0 -> 0 <= out p l1 (move z0 s1 (dir i j)) -> 0 <= out p l (move z0 s (dir i j)).
Proof.
  intros A0 A1 A Hs P0 P1. rewrite (out_move i j p l0 l1 z0 s1 A0 A1) in P1. rewrite (out_move i j p l0 l z0 s A0 A).
  destruct (Rle_lt_dec 0 (cross3 i j p)); nra.
Qed.

(* ---------- three arcs ---------- *)
(* position on a circle, seen from its lowest point *)
Definition slope (p : rpt) (l x : R) : R := (x - fst p) / (snd p - l).
Lemma slope_cross a b l x : l < snd a -> l < snd b -> cross3 a b (x, l) = (snd a - l) * (snd b - l) * (slope b l x - slope a l x).
Proof. intros Ha Hb. unfold cross3, slope; cbn [fst snd]. field. lra. Qed.
Lemma on_circle p l z : l < snd p -> l < snd z -> out p l z = 0 ->
  let k := slope p l (fst z) in let h := 2 * (snd z - l) / (1 + k * k) in p = (fst z - k * h, l + h).
Proof.
  intros Hp Hz Ho k h. destruct p as [a b], z as [x y]. cbn [fst snd] in *.
  assert (Ek : a = x - k * (b - l)) by (unfold k, slope; cbn [fst snd]; field; lra).
  assert (P : 0 < 1 + k * k) by (pose proof (sq_nonneg k); lra).
  assert (Eh : b - l = h).
  { unfold h. apply (Rmult_eq_reg_r (1 + k * k)); [|lra]. replace (2 * (y - l) / (1 + k * k) * (1 + k * k)) with (2 * (y - l)) by (field; lra).
    unfold out, dist2 in Ho; cbn [fst snd] in Ho. apply (Rmult_eq_reg_r (b - l)); [|lra]. rewrite Ek in Ho. clearbody k. clear - Ho. lra. }
  rewrite Ek, <- Eh. f_equal; lra.
Qed.
Lemma circle_cross a b c l z : l < snd a -> l < snd b -> l < snd c -> l < snd z -> out a l z = 0 -> out b l z = 0 -> out c l z = 0 ->
  exists K, 0 < K /\ cross3 a b c = K * ((slope b l (fst z) - slope a l (fst z)) * (slope b l (fst z) - slope c l (fst z)) * (slope a l (fst z) - slope c l (fst z))).
Proof.
  intros Ha Hb Hc Hz Oa Ob Oc.
  pose proof (on_circle a l z Ha Hz Oa) as Ea. pose proof (on_circle b l z Hb Hz Ob) as Eb. pose proof (on_circle c l z Hc Hz Oc) as Ec. cbv zeta in *.
  set (ka := slope a l (fst z)) in *. set (kb := slope b l (fst z)) in *. set (kc := slope c l (fst z)) in *. clearbody ka kb kc.
  set (r := snd z - l) in *. assert (Hr : 0 < r) by (unfold r; lra).
  assert (Pa : 0 < 1 + ka * ka) by (pose proof (sq_nonneg ka); lra). assert (Pb : 0 < 1 + kb * kb) by (pose proof (sq_nonneg kb); lra).
  assert (Pc : 0 < 1 + kc * kc) by (pose proof (sq_nonneg kc); lra).
  exists (4 * r * r / ((1 + ka * ka) * (1 + kb * kb) * (1 + kc * kc))). split.
  - apply Rdiv_lt_0_compat; [nra|]. repeat apply Rmult_lt_0_compat; assumption.
  - rewrite Ea, Eb, Ec. unfold cross3; cbn [fst snd]. field. lra.
Qed.
Lemma slope_inj a b l z : l < snd a -> l < snd b -> l < snd z -> out a l z = 0 -> out b l z = 0 -> slope a l (fst z) = slope b l (fst z) -> a = b.
Proof.
  intros Ha Hb Hz Oa Ob E. rewrite (on_circle a l z Ha Hz Oa), (on_circle b l z Hb Hz Ob). cbv zeta. rewrite E. reflexivity.
Qed.
Lemma bottom_point p l z : snd p = l -> out p l z = 0 -> p = (fst z, l).
Proof.
  intros E Ho. rewrite out_level in Ho by assumption. assert (fst z - fst p = 0) by (apply Rsqr_0_uniq; unfold Rsqr; lra).
  destruct p; cbn [fst snd] in *. f_equal; lra.
Qed.

(* two parabolas that meet at X *)
Lemma para_near p a l z x : l < snd p -> l < snd a -> out p l z = 0 -> out a l z = 0 ->
  para p l x - para a l x = (x - fst z) * (slope p l (fst z) - slope a l (fst z) + (x - fst z) / 2 * (/ (snd p - l) - / (snd a - l))).
Proof.
  intros Hp Ha Op Oa. destruct z as [X Y]. apply out_para_eq in Op; [|assumption]. apply out_para_eq in Oa; [|assumption].
  transitivity ((para p l x - Y) - (para a l x - Y)); [ring|]. rewrite Op at 1. rewrite Oa at 1.
  unfold para, slope; cbn [fst snd]. field. lra.
Qed.
(* if the arc of a is the lower one just left of X, it is the steeper one at X *)
Lemma lower_left p a l z e : l < snd p -> l < snd a -> out p l z = 0 -> out a l z = 0 -> e < fst z ->
  (forall x, e <= x <= fst z -> 0 <= out p l (x, para a l x)) -> slope p l (fst z) <= slope a l (fst z).
Proof.
  intros Hp Ha Op Oa He H. destruct (Rle_lt_dec (slope p l (fst z)) (slope a l (fst z))) as [|L]; [assumption|]. exfalso.
  set (d := slope p l (fst z) - slope a l (fst z)) in *. set (k := (/ (snd p - l) - / (snd a - l)) / 2).
  (* x = fst z - t with t small *)
  assert (exists t, 0 < t /\ t <= fst z - e /\ 0 < d - t * k) as (t & T1 & T2 & T3).
  { assert (Hd : 0 < d) by (unfold d; lra). destruct (Rle_lt_dec k 0) as [K|K].
    - exists (fst z - e). split; [lra|]. split; [lra|]. nra.
    - exists (Rmin (fst z - e) (d / (2 * k))). assert (0 < d / (2 * k)) by (apply Rdiv_lt_0_compat; lra).
      split; [apply Rmin_glb_lt; lra|]. split; [apply Rmin_l|]. pose proof (Rmin_r (fst z - e) (d / (2 * k))).
      assert (d / (2 * k) * k = d / 2) by (field; lra). nra. }
  specialize (H (fst z - t)). assert (H' : 0 <= out p l (fst z - t, para a l (fst z - t))) by (apply H; lra).
  apply out_para_le in H'; [|assumption]. pose proof (para_near p a l z (fst z - t) Hp Ha Op Oa) as E. fold d in E.
  replace ((fst z - t - fst z) * (d + (fst z - t - fst z) / 2 * (/ (snd p - l) - / (snd a - l)))) with (- (t * (d - t * k))) in E by (unfold k; field; lra).
  nra.
Qed.
Lemma lower_right p a l z e : l < snd p -> l < snd a -> out p l z = 0 -> out a l z = 0 -> fst z < e ->
  (forall x, fst z <= x <= e -> 0 <= out p l (x, para a l x)) -> slope a l (fst z) <= slope p l (fst z).
Proof.
  intros Hp Ha Op Oa He H. destruct (Rle_lt_dec (slope a l (fst z)) (slope p l (fst z))) as [|L]; [assumption|]. exfalso.
  set (d := slope a l (fst z) - slope p l (fst z)) in *. set (k := (/ (snd p - l) - / (snd a - l)) / 2).
  assert (exists t, 0 < t /\ t <= e - fst z /\ 0 < d - t * k) as (t & T1 & T2 & T3).
  { assert (Hd : 0 < d) by (unfold d; lra). destruct (Rle_lt_dec k 0) as [K|K].
    - exists (e - fst z). split; [lra|]. split; [lra|]. nra.
    - exists (Rmin (e - fst z) (d / (2 * k))). assert (0 < d / (2 * k)) by (apply Rdiv_lt_0_compat; lra).
      split; [apply Rmin_glb_lt; lra|]. split; [apply Rmin_l|]. pose proof (Rmin_r (e - fst z) (d / (2 * k))).
      assert (d / (2 * k) * k = d / 2) by (field; lra). nra. }
  specialize (H (fst z + t)). assert (H' : 0 <= out p l (fst z + t, para a l (fst z + t))) by (apply H; lra).
  apply out_para_le in H'; [|assumption]. pose proof (para_near p a l z (fst z + t) Hp Ha Op Oa) as E.
  replace ((fst z + t - fst z) * (slope p l (fst z) - slope a l (fst z) + (fst z + t - fst z) / 2 * (/ (snd p - l) - / (snd a - l)))) with (- (t * (d - t * k))) in E by (unfold k, d; field; lra).
  nra.
Qed.

(* the meeting points of a-b and b-c coincide: the three sites are in clockwise order *)
Lemma meet_clockwise a b c l z : edge_at a b l z -> edge_at b c l z -> l <= snd a -> l < snd b -> l <= snd c -> a <> b -> b <> c ->
  ~ (snd a = l /\ snd c = l) -> cross3 a b c < 0.
Proof.
  intros H1 H2 Ha Hb Hc N1 N2 NL. pose proof H1 as (Hz & Oa & Ob & C1). pose proof H2 as (_ & _ & Oc & C2).
  destruct (Req_dec (snd a) l) as [Ea|Ea].
  - apply bottom_point in Oa; [|assumption]. assert (Hc' : l < snd c) by (destruct (Req_dec (snd c) l); [tauto|lra]).
    pose proof (edge_strict b c l z H2 N2 Hb Hc'). rewrite Oa. unfold cross3 in *; cbn [fst snd] in *. lra.
  - assert (Ha' : l < snd a) by lra. pose proof (edge_strict a b l z H1 N1 Ha' Hb) as S1. destruct (Req_dec (snd c) l) as [Ec|Ec].
    + apply bottom_point in Oc; [|assumption]. rewrite Oc. exact S1.
    + assert (Hc' : l < snd c) by lra. pose proof (edge_strict b c l z H2 N2 Hb Hc') as S2.
      rewrite slope_cross in S1, S2 by assumption.
      destruct (circle_cross a b c l z Ha' Hb Hc' Hz Oa Ob Oc) as (K & HK & ->).
      set (ka := slope a l (fst z)) in *. set (kb := slope b l (fst z)) in *. set (kc := slope c l (fst z)) in *.
      assert (kb < ka). { assert (0 < (snd a - l) * (snd b - l)) by (apply Rmult_lt_0_compat; lra). nra. }
      assert (kc < kb). { assert (0 < (snd b - l) * (snd c - l)) by (apply Rmult_lt_0_compat; lra). nra. }
      assert (0 < (ka - kb) * (kb - kc) * (ka - kc)) by (repeat apply Rmult_lt_0_compat; lra). nra.
Qed.
Lemma edge_pt_left i j l z : edge_at i j l z -> l < snd i -> z = (fst z, para i l (fst z)).
Proof. intros H Hi. rewrite <- (edge_y_left i j l z H Hi). destruct z; reflexivity. Qed.
Lemma edge_pt_right i j l z : edge_at i j l z -> l < snd j -> z = (fst z, para j l (fst z)).
Proof. intros H Hi. rewrite <- (edge_y_right i j l z H Hi). destruct z; reflexivity. Qed.
Lemma mul_pos_inv a b : 0 < a -> 0 <= a * b -> 0 <= b.
Proof. intros Ha H. destruct (Rle_lt_dec 0 b) as [|L]; [assumption|]. nra. Qed.
(* how much higher the parabola of p is than that of a *)
Definition gap (p a : rpt) (l x : R) : R := para p l x - para a l x.
Lemma gap_quad p a l x1 x x2 : l < snd p -> l < snd a ->
  (x2 - x1) * gap p a l x = (x2 - x) * gap p a l x1 + (x - x1) * gap p a l x2 - (/ (snd p - l) - / (snd a - l)) / 2 * ((x - x1) * (x2 - x) * (x2 - x1)).
Proof. intros Hp Ha. unfold gap, para. field. lra. Qed.
Lemma gap_concave p a l x1 x x2 : l < snd a -> snd a <= snd p -> x1 <= x <= x2 -> 0 <= gap p a l x1 -> 0 <= gap p a l x2 -> 0 <= gap p a l x.
Proof.
  intros Ha Hap Hx G1 G2. destruct (Req_dec x1 x2) as [E|E]; [replace x with x1 by lra; assumption|].
  assert (K : / (snd p - l) <= / (snd a - l)) by (apply Rinv_le_contravar; lra).
  pose proof (gap_quad p a l x1 x x2 ltac:(lra) Ha) as Q.
  set (k := (/ (snd p - l) - / (snd a - l)) / 2) in *. assert (Hk : k <= 0) by (unfold k; lra).
  assert (0 <= (x2 - x) * gap p a l x1) by (apply Rmult_le_pos; lra). assert (0 <= (x - x1) * gap p a l x2) by (apply Rmult_le_pos; lra).
  assert (0 <= (x - x1) * (x2 - x) * (x2 - x1)) by (repeat apply Rmult_le_pos; lra).
  apply (mul_pos_inv (x2 - x1)); [lra|]. rewrite Q. nra.
Qed.
Lemma gap_convex p a l x1 x x2 : l < snd p -> snd p <= snd a -> x1 <= x <= x2 -> gap p a l x1 < 0 -> gap p a l x2 < 0 -> gap p a l x < 0.
Proof.
  intros Hp Hap Hx G1 G2. destruct (Req_dec x1 x2) as [E|E]; [replace x with x1 by lra; assumption|].
  assert (K : / (snd a - l) <= / (snd p - l)) by (apply Rinv_le_contravar; lra).
  pose proof (gap_quad p a l x1 x x2 Hp ltac:(lra)) as Q.
  set (k := (/ (snd p - l) - / (snd a - l)) / 2) in *. assert (Hk : 0 <= k) by (unfold k; lra).
  assert (0 <= (x - x1) * (x2 - x) * (x2 - x1)) by (repeat apply Rmult_le_pos; lra).
  assert ((x2 - x) * gap p a l x1 + (x - x1) * gap p a l x2 < 0).
  { destruct (Req_dec x x1) as [->|]; [|assert ((x - x1) * gap p a l x2 < 0) by (apply Ropp_lt_cancel; rewrite Ropp_0, Ropp_mult_distr_r; apply Rmult_lt_0_compat; lra)].
    - assert ((x2 - x1) * gap p a l x1 < 0) by (apply Ropp_lt_cancel; rewrite Ropp_0, Ropp_mult_distr_r; apply Rmult_lt_0_compat; lra). lra.
    - assert (0 <= (x2 - x) * (- gap p a l x1)) by (apply Rmult_le_pos; lra). lra. }
  destruct (Rlt_le_dec (gap p a l x) 0) as [|L]; [assumption|]. exfalso.
  assert (0 <= (x2 - x1) * gap p a l x) by (apply Rmult_le_pos; lra). nra.
Qed.
Lemma gap_out p a l x : l < snd p -> (0 <= out p l (x, para a l x) <-> 0 <= gap p a l x).
Proof. intros Hp. rewrite out_para_le by assumption. unfold gap. lra. Qed.
Lemma gap_level p a l x : l < snd a -> snd p = snd a -> gap p a l x = (fst p - fst a) * (fst p + fst a - 2 * x) / (2 * (snd a - l)).
Proof. intros Ha E. unfold gap, para. rewrite E. field. lra. Qed.
Lemma gap_foot p a l : l < snd p -> snd p < snd a -> gap p a l (fst p) < 0.
Proof.
  intros Hp Ha. unfold gap. assert (E : para p l (fst p) = (snd p + l) / 2) by (unfold para; field; lra).
  assert (E' : para a l (fst p) = (snd a + l) / 2 + (fst p - fst a) * (fst p - fst a) / (2 * (snd a - l))) by (unfold para; field; lra).
  pose proof (sq_nonneg (fst p - fst a)). assert (0 <= (fst p - fst a) * (fst p - fst a) / (2 * (snd a - l))).
  { apply Rmult_le_pos; [assumption|]. left. apply Rinv_0_lt_compat. lra. } lra.
Qed.

(* a meeting point cannot pass above a site that it does not see *)
Lemma no_pass i a p l0 l z0 z1 : i <> a -> edge_at i a l0 z0 -> edge_at i a l z1 -> l < l0 -> l0 <= snd p -> snd p < snd a \/ snd p < snd i ->
  p <> i -> p <> a -> 0 <= out p l0 z0 -> 0 <= out p l z1 -> (fst z0 - fst p) * (fst z1 - fst p) <= 0 -> fst z1 = fst p.
Proof.
  intros N E0 E1 Hl Hp Hlow Ni Na P0 P1 HX.
  destruct (edge_mono i a l0 l z0 z1 N E0 E1 ltac:(lra)) as (s1 & Es & Hs & Hs'). specialize (Hs' Hl).
  destruct (Req_dec (fst z1) (fst p)) as [|N1]; [assumption|]. exfalso.
  pose proof E0 as (A1 & A2 & A3 & A4). pose proof E1 as (B1 & B2 & B3 & B4).
  set (u := snd a - snd i). assert (Ex : fst z1 = fst z0 + s1 * u) by (rewrite Es; reflexivity).
  assert (Hu : u <> 0).
  { intros Eu. rewrite Eu in Ex. assert (fst z1 = fst z0) by lra. rewrite <- H in HX. assert (0 < (fst z1 - fst p) * (fst z1 - fst p)) by (apply Rsqr_pos_lt; lra). lra. }
  (* where it passes *)
  set (s := (fst p - fst z0) / u). assert (Esu : fst z0 + s * u = fst p) by (unfold s; field; assumption).
  assert (Hss : 0 <= s < s1).
  { assert (K1 : (s * u) * (s1 * u - s * u) >= 0).
    { replace (s * u) with (- (fst z0 - fst p)) by lra. replace (s1 * u - - (fst z0 - fst p)) with (fst z1 - fst p) by lra. clear - HX. nra. }
    assert (0 < u * u) by (apply Rsqr_pos_lt; assumption).
    assert (K2 : 0 <= s * (s1 - s)) by (apply (mul_pos_inv (u * u)); [assumption|]; clear - K1; nra).
    assert (K3 : s <> s1). { intros E. apply N1. rewrite Ex, <- E. exact Esu. }
    clear - K2 K3 Hs'. destruct (Rle_lt_dec 0 s); [|nra]. split; [assumption|]. destruct (Rlt_le_dec s s1); [assumption|]. nra. }
  destruct (edge_between i a l0 l z0 s1 s N E0) as (m & Hm & Em).
  { rewrite <- Es. exact E1. } { lra. } { lra. }
  set (z := move z0 s (dir i a)) in *. pose proof Em as (C1 & C2 & C3 & C4).
  assert (Hzx : fst z = fst p) by exact Esu.
  assert (P : 0 <= out p m z).
  { apply (out_between i a p l0 l m z0 s1 s A2); try assumption; rewrite <- ?Es; try assumption. lra. }
  (* p lies on the vertical diameter of that circle *)
  assert (Ht : snd p < 2 * snd z - m).
  { assert (forall q, out q m z = 0 -> snd q <= 2 * snd z - m) as HT.
    { intros q Hq. unfold out, dist2 in Hq. pose proof (sq_nonneg (fst q - fst z)). clear - Hq H C1. destruct (Rle_lt_dec (snd q) (2 * snd z - m)); [assumption|]. nra. }
    pose proof (HT i C2). pose proof (HT a C3). destruct Hlow; lra. }
  assert (Hpm : snd p <= m).
  { unfold out, dist2 in P. rewrite Hzx in P. clear - P Ht. destruct (Rle_lt_dec (snd p) m); [assumption|]. nra. }
  assert (m = l0) by lra. subst m. assert (Ep : snd p = l0) by lra.
  assert (Ez : z = z0) by (apply (edge_unique i a l0); assumption).
  assert (s = 0).
  { rewrite <- Ez in Esu. rewrite Hzx in Esu. assert (s * u = 0) by lra. apply Rmult_integral in H as [|]; [assumption|contradiction]. }
  assert (Epp : p = (fst z0, l0)) by (destruct p; cbn [fst snd] in *; rewrite <- Ez; f_equal; congruence).
  assert (out p l0 z0 = 0) by (rewrite Epp; apply out_bottom).
  assert (out p l z1 = 2 * s1 * cross3 i a p).
  { rewrite Es, (out_move i a p l0 l z0 s1 A2) by (rewrite <- Es; assumption). rewrite H0. ring. }
  assert (cross3 i a p = 0). { rewrite <- Epp in A4. clear - A4 H1 P1 Hs'. nra. }
  revert H2. apply (cocircular_cross i a p z0 (snd z0 - l0)); auto; unfold out in *; lra.
Qed.

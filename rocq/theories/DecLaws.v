(* DecLaws.v -- the laws of [DecArith] used by the sweep proofs. *)
From Coq Require Import ZArith Bool List Lia.
From Verif Require Import Arith Geom DecArith.
Local Open Scope Z_scope.

(* the value of a in units of 10^e *)
Definition units (e : Z) (a : dec) : Z := dm a * 10 ^ (de a - e).

Lemma pow_split a b e : e <= b -> b <= a -> 10 ^ (a - e) = 10 ^ (a - b) * 10 ^ (b - e).
Proof. intros. rewrite <- Z.pow_add_r by lia. f_equal. lia. Qed.
Lemma dec_lt_units a b e : e <= de a -> e <= de b -> dec_lt a b = (units e a <? units e b).
Proof.
  intros Ha Hb. unfold dec_lt, align, units. set (m := Z.min (de a) (de b)).
  rewrite (pow_split (de a) m e) by lia. rewrite (pow_split (de b) m e) by lia.
  rewrite !Z.mul_assoc. set (x := dm a * _). set (y := dm b * _).
  assert (0 < 10 ^ (m - e)) by (apply Z.pow_pos_nonneg; lia).
  destruct (x <? y) eqn:E; symmetry; [apply Z.ltb_lt|apply Z.ltb_ge];
    [apply Z.ltb_lt in E|apply Z.ltb_ge in E]; nia.
Qed.
Lemma dec_eq_units a b e : e <= de a -> e <= de b -> dec_eq a b = (units e a =? units e b).
Proof.
  intros Ha Hb. unfold dec_eq, align, units. set (m := Z.min (de a) (de b)).
  rewrite (pow_split (de a) m e) by lia. rewrite (pow_split (de b) m e) by lia.
  rewrite !Z.mul_assoc. set (x := dm a * _). set (y := dm b * _).
  assert (0 < 10 ^ (m - e)) by (apply Z.pow_pos_nonneg; lia).
  destruct (x =? y) eqn:E; symmetry; [apply Z.eqb_eq|apply Z.eqb_neq];
    [apply Z.eqb_eq in E|apply Z.eqb_neq in E]; nia.
Qed.

Lemma DecArith_order : TotalOrder DecArith.
Proof.
  constructor; cbn -[dec_lt dec_eq].
  - intros a. rewrite (dec_lt_units a a (de a)) by lia. apply Z.ltb_irrefl.
  - intros a b c. set (e := Z.min (de a) (Z.min (de b) (de c))).
    rewrite !(dec_lt_units _ _ e) by lia. rewrite !Z.ltb_lt. lia.
  - intros a b c. set (e := Z.min (de a) (Z.min (de b) (de c))).
    rewrite !(dec_lt_units _ _ e) by lia. rewrite !Z.ltb_lt. lia.
  - intros a b. set (e := Z.min (de a) (de b)).
    rewrite !(dec_lt_units _ _ e), (dec_eq_units _ _ e) by lia.
    destruct (Z.eqb_spec (units e a) (units e b)), (Z.ltb_spec (units e a) (units e b)), (Z.ltb_spec (units e b) (units e a)); simpl; lia || reflexivity.
Qed.

(* subtraction is anti-symmetric *)
Definition opp (a : dec) : dec := mkdec (- dm a) (de a).
Lemma round_div_opp n k : round_div (- n) k = - round_div n k.
Proof. unfold round_div. rewrite Z.abs_opp, Z.sgn_opp. lia. Qed.
Lemma round28_opp n e : round28 (- n) e = opp (round28 n e).
Proof.
  unfold round28, opp. rewrite Z.abs_opp. destruct (_ <? _); [reflexivity|]. simpl. rewrite round_div_opp. reflexivity.
Qed.
Lemma dec_sub_opp a b : dec_sub b a = opp (dec_sub a b).
Proof.
  unfold dec_sub, align. rewrite Z.min_comm. rewrite <- round28_opp. f_equal. lia.
Qed.
Lemma dec_mul_opp_r a b : dec_mul a (opp b) = opp (dec_mul a b).
Proof. unfold dec_mul. rewrite <- round28_opp. unfold opp; simpl. f_equal. lia. Qed.
Lemma dec_mul_comm a b : dec_mul a b = dec_mul b a.
Proof. unfold dec_mul. f_equal; lia. Qed.
Lemma dec_sub_self a : dec_sub a a = mkdec 0 (de a).
Proof. unfold dec_sub, align. rewrite Z.sub_diag, Z.min_id. reflexivity. Qed.

Lemma DecArith_circle (p q : pt DecArith) : create_circle DecArith p q p = Val None.
Proof.
  destruct p as [px py], q as [qx qy]. unfold create_circle. cbn -[dec_sub dec_mul dec_eq dec_add dec_div dec_sqrt].
  replace (dec_sub (dec_mul (dec_sub qx px) (dec_sub py qy)) (dec_mul (dec_sub qy py) (dec_sub px qx)))
    with (mkdec 0 (de (dec_mul (dec_sub qx px) (dec_sub py qy)))).
  - unfold dec_mul at 1. simpl. unfold dec_eq, align. simpl. reflexivity.
  - rewrite <- dec_sub_self. f_equal. rewrite (dec_sub_opp qy py), (dec_sub_opp qx px), !dec_mul_opp_r. f_equal. apply dec_mul_comm.
Qed.

(* numbers that are multiples of 10^q below 10^(27+q) *)
Definition fixed (q : Z) (a : dec) : Prop := q <= de a /\ Z.abs (units q a) < 10 ^ 27.

Lemma ten28_eq : ten28 = 10 ^ 28. Proof. reflexivity. Qed.
Lemma dec_add_exact q a b : fixed q a -> fixed q b ->
  q <= de (dec_add a b) /\ units q (dec_add a b) = units q a + units q b.
Proof.
  intros [Ha Ha'] [Hb Hb']. unfold dec_add, align. set (e := Z.min (de a) (de b)).
  assert (Ea : units q a = dm a * 10 ^ (de a - e) * 10 ^ (e - q)) by (unfold units; rewrite (pow_split (de a) e q) by lia; ring).
  assert (Eb : units q b = dm b * 10 ^ (de b - e) * 10 ^ (e - q)) by (unfold units; rewrite (pow_split (de b) e q) by lia; ring).
  assert (0 < 10 ^ (e - q)) by (apply Z.pow_pos_nonneg; lia).
  set (x := dm a * _) in *. set (y := dm b * _) in *.
  unfold round28. replace (Z.abs (x + y) <? ten28) with true.
  - unfold units; simpl. split; [lia|]. fold (units q a) (units q b). lia.
  - symmetry. apply Z.ltb_lt. rewrite ten28_eq. change (10 ^ 28) with (10 * 10 ^ 27). nia.
Qed.

Lemma ndigits_fuel_le f n j : 0 <= j -> n < 10 ^ j -> ndigits_fuel f n <= j.
Proof.
  revert n j. induction f as [|f IH]; intros n j Hj Hn; cbn [ndigits_fuel]; [lia|].
  destruct (Z.leb_spec n 0); [lia|].
  assert (1 <= j). { destruct (Z.eq_dec j 0) as [->|]; [simpl in Hn; lia|lia]. }
  enough (ndigits_fuel f (n / 10) <= j - 1) by lia.
  apply IH; [lia|]. apply Z.div_lt_upper_bound; [lia|]. rewrite <- Z.pow_succ_r by lia. replace (Z.succ (j - 1)) with j by lia. lia.
Qed.
Lemma ndigits_le n j : 0 <= j -> n < 10 ^ j -> ndigits n <= j.
Proof. apply ndigits_fuel_le. Qed.
Lemma ndigits_fuel_nonneg f n : 0 <= ndigits_fuel f n.
Proof. revert n. induction f as [|f IH]; intros n; cbn [ndigits_fuel]; [lia|]. destruct (n <=? 0); [lia|]. specialize (IH (n / 10)). lia. Qed.

Lemma round_div_exact n k j : 0 <= k <= j -> round_div (n * 10 ^ j) k = n * 10 ^ (j - k).
Proof.
  intros Hk. unfold round_div.
  assert (0 < 10 ^ k) by (apply Z.pow_pos_nonneg; lia). assert (0 < 10 ^ (j - k)) by (apply Z.pow_pos_nonneg; lia).
  replace (10 ^ j) with (10 ^ (j - k) * 10 ^ k) by (rewrite <- Z.pow_add_r by lia; f_equal; lia).
  rewrite Z.mul_assoc, Z.abs_mul, (Z.abs_eq (10 ^ k)) by lia.
  rewrite Z.div_mul, Z.mod_mul by lia. rewrite Z.mul_0_r.
  replace (10 ^ k <? 0) with false by (symmetry; apply Z.ltb_ge; lia).
  replace (0 =? 10 ^ k) with false by (symmetry; apply Z.eqb_neq; lia). simpl.
  rewrite Z.sgn_mul, (Z.sgn_pos (10 ^ k)), Z.mul_1_r by lia. apply Z.sgn_abs || (rewrite Z.mul_comm; apply Z.abs_sgn).
Qed.

(* n * 10^j with |n| < 10^28 is not changed by rounding *)
Lemma round28_exact n j e q : 0 <= j -> Z.abs n < 10 ^ 28 -> q <= e ->
  exists d, round28 (n * 10 ^ j) e = d /\ q <= de d /\ units q d = n * 10 ^ j * 10 ^ (e - q).
Proof.
  intros Hj Hn Hq. unfold round28. destruct (Z.abs (n * 10 ^ j) <? ten28) eqn:E.
  - eexists. split; [reflexivity|]. simpl. split; [lia|]. reflexivity.
  - eexists. split; [reflexivity|]. set (k := ndigits _).
    assert (Hk : 0 <= k <= j).
    { split; [apply ndigits_fuel_nonneg|]. apply ndigits_le; [lia|]. rewrite ten28_eq. apply Z.div_lt_upper_bound; [lia|].
      assert (0 < 10 ^ j) by (apply Z.pow_pos_nonneg; lia). rewrite Z.abs_mul, (Z.abs_eq (10 ^ j)) by lia. nia. }
    rewrite round_div_exact by lia. unfold units. simpl. split; [lia|].
    rewrite <- !Z.mul_assoc. f_equal. rewrite <- !Z.pow_add_r by lia. f_equal. lia.
Qed.

(* Halving a sum of two such numbers is exact, so the mean of two sites' coordinates lies
   where it should: coordinates with at most 27 digits. *)
Lemma DecArith_mid q xs : (forall x, In x xs -> fixed q x) -> MidOK DecArith xs.
Proof.
  intros HX a b c m Ha Hb Hc. cbn -[dec_lt dec_add dec_div].
  apply HX in Ha, Hb, Hc. destruct (dec_add_exact q a b Ha Hb) as [Hs Es].
  destruct Ha as [Ha1 Ha2], Hb as [Hb1 Hb2], Hc as [Hc1 Hc2].
  rewrite (dec_lt_units a c q), (dec_lt_units c b q) by lia. rewrite Z.ltb_lt, Z.ltb_ge. intros H1 H2.
  set (s := dec_add a b) in *. unfold dec_div. cbn [dm de dec_Z]. simpl (2 =? 0). cbv iota.
  change (Z.abs 2) with 2. change (ndigits 2) with 1. change (Z.sgn 2) with 1.
  set (z := Z.max 0 (prec + 2 + 1 - ndigits (Z.abs (dm s)))).
  assert (Hp : 0 < 10 ^ (de s - q)) by (apply Z.pow_pos_nonneg; lia).
  assert (Hd : Z.abs (dm s) < 2 * 10 ^ 27). { unfold units in Es at 1. nia. }
  assert (Hz : 1 <= z).
  { assert (ndigits (Z.abs (dm s)) <= 28); [|unfold z, prec; lia]. apply ndigits_le; [lia|]. change (10 ^ 28) with (10 * 10 ^ 27). lia. }
  replace (Z.abs (dm s) * 10 ^ z) with (Z.abs (dm s) * 5 * 10 ^ (z - 1) * 2).
  2:{ replace z with (Z.succ (z - 1)) at 2 by lia. rewrite Z.pow_succ_r by lia. ring. }
  rewrite Z.div_mul, Z.mod_mul by lia. change (0 =? 0) with true. unfold sticky.
  intros [= <-].
  replace (Z.sgn (dm s) * 1 * (Z.abs (dm s) * 5 * 10 ^ (z - 1))) with (dm s * 5 * 10 ^ (z - 1)).
  2:{ assert (HS : Z.sgn (dm s) * Z.abs (dm s) = dm s) by (clear; destruct (dm s); simpl; lia).
      rewrite <- HS at 1. ring. }
  destruct (round28_exact (dm s * 5) (z - 1) (de s - 0 - z) (Z.min q (de s - z))) as (d & -> & Hd1 & Hd2); [lia| |lia|].
  { rewrite Z.abs_mul. change (Z.abs 5) with 5. change (10 ^ 28) with (10 * 10 ^ 27). lia. }
  set (e := Z.min q (de s - z)) in *.
  rewrite (dec_lt_units d c e) by lia. rewrite Hd2. apply Z.ltb_lt.
  assert (Ec : units e c = units q c * 10 ^ (q - e)) by (unfold units; rewrite (pow_split (de c) q e) by lia; ring).
  assert (Hpe : 0 < 10 ^ (q - e)) by (apply Z.pow_pos_nonneg; lia).
  assert (E2 : 2 * (dm s * 5 * 10 ^ (z - 1) * 10 ^ (de s - 0 - z - e)) = units q s * 10 ^ (q - e)).
  { unfold units. rewrite <- !Z.mul_assoc, <- !Z.pow_add_r by lia.
    replace (de s - q + (q - e)) with (Z.succ (z - 1 + (de s - 0 - z - e))) by lia. rewrite Z.pow_succ_r by lia. ring. }
  rewrite Ec. nia.
Qed.

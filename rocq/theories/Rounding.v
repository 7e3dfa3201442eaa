(* Rounding.v -- Point.area with a number of digits, on exact areas. *)
From stdpp Require Import base list.
From Coq Require Import ZArith Reals Lra Lia Psatz.
From Verif Require Import Arith Geom Monad State Finish RArith SpecClip PropGeom.
Local Open Scope R_scope.

(* numpy's rint: the nearest integer, of two the even one *)
Definition rint (x : R) : Z :=
  let n := (up x - 1)%Z in
  if Rlt_dec (x - IZR n) (1 / 2) then n else
  if Rlt_dec (1 / 2) (x - IZR n) then (n + 1)%Z else
  if Z.even n then n else (n + 1)%Z.
(* round(x, digits) of a numpy float: rint(x * 10 ** digits) / 10 ** digits, here without the errors of the
   product and the quotient; digits may be negative *)
Definition round_to (x : R) (digits : Z) : R := IZR (rint (x * powerRZ 10 digits)) / powerRZ 10 digits.
(* graph/point.py:54-74 area(digits), on exact areas; digits = None is the call without an argument *)
Definition area_to (s : state RArith) (fuel p : nat) (digits : option Z) : result R :=
  rbind (area RArith s fuel p) (fun x => Val (match digits with Some d => round_to x d | None => x end)).

Lemma abs_bound x a : Rabs x <= a -> - a <= x <= a.
Proof. unfold Rabs. destruct (Rcase_abs x); lra. Qed.
Lemma rint_spec x : Rabs (IZR (rint x) - x) <= 1 / 2 /\ (Rabs (IZR (rint x) - x) = 1 / 2 -> Z.even (rint x) = true).
Proof.
  unfold rint. destruct (archimed x) as [U1 U2]. set (n := (up x - 1)%Z). assert (En : IZR n = IZR (up x) - 1) by (unfold n; by rewrite minus_IZR).
  destruct (Rlt_dec (x - IZR n) (1 / 2)) as [L|L]; [|destruct (Rlt_dec (1 / 2) (x - IZR n)) as [G|G]; [|destruct (Z.even n) eqn:Ev]].
  - rewrite Rabs_minus_sym, Rabs_pos_eq by lra. split; [lra|]. intros; lra.
  - rewrite plus_IZR. rewrite Rabs_pos_eq by lra. split; [lra|]. intros; lra.
  - rewrite Rabs_minus_sym, Rabs_pos_eq by lra. split; [lra|done].
  - rewrite plus_IZR. rewrite Rabs_pos_eq by lra. split; [lra|]. intros _. rewrite Z.even_add, Ev. done.
Qed.
Lemma rint_closest x m : Rabs (IZR (rint x) - x) <= Rabs (IZR m - x).
Proof.
  destruct (rint_spec x) as [H _]. destruct (Z.eq_dec m (rint x)) as [-> |N]; [lra|]. apply abs_bound in H.
  destruct (Z_lt_le_dec m (rint x)) as [L|L].
  - assert (IZR m <= IZR (rint x) - 1) by (rewrite <- minus_IZR; apply IZR_le; lia). rewrite (Rabs_minus_sym (IZR m)), (Rabs_pos_eq (x - IZR m)) by lra. apply Rabs_le. lra.
  - assert (IZR (rint x) + 1 <= IZR m) by (rewrite <- plus_IZR; apply IZR_le; lia). rewrite (Rabs_pos_eq (IZR m - x)) by lra. apply Rabs_le. lra.
Qed.
Lemma rint_mono x y : x <= y -> (rint x <= rint y)%Z.
Proof.
  intros H. apply Z.nlt_ge. intros L. destruct (rint_spec x) as [X1 X2], (rint_spec y) as [Y1 Y2]. assert (IZR (rint y) + 1 <= IZR (rint x)) by (rewrite <- plus_IZR; apply IZR_le; lia).
  apply abs_bound in X1, Y1. assert (x = y) by lra. subst y. lia.
Qed.
Lemma ten_pos d : 0 < powerRZ 10 d. Proof. apply powerRZ_lt. lra. Qed.
Lemma scaled x m k : 0 < k -> Rabs (m / k - x) = Rabs (m - x * k) / k.
Proof. intros K. replace (m / k - x) with ((m - x * k) * / k) by (field; lra). rewrite Rabs_mult, (Rabs_pos_eq (/ k)); [done|]. left. by apply Rinv_0_lt_compat. Qed.
Lemma round_to_spec x d : exists n : Z, round_to x d = IZR n / powerRZ 10 d /\ (forall m : Z, Rabs (round_to x d - x) <= Rabs (IZR m / powerRZ 10 d - x)) /\
  Rabs (round_to x d - x) <= 1 / 2 / powerRZ 10 d /\ (Rabs (round_to x d - x) = 1 / 2 / powerRZ 10 d -> Z.even n = true).
Proof.
  pose proof (ten_pos d) as K. assert (0 < / powerRZ 10 d) by (by apply Rinv_0_lt_compat). exists (rint (x * powerRZ 10 d)). unfold round_to. split; [done|]. rewrite !(scaled x _ _ K). destruct (rint_spec (x * powerRZ 10 d)) as [H1 H2]. split; [|split].
  - intros m. rewrite !(scaled x _ _ K). apply Rmult_le_compat_r; [lra|]. apply rint_closest.
  - apply Rmult_le_compat_r; [lra|done].
  - intros E. apply H2. apply (Rmult_eq_reg_r (/ powerRZ 10 d)); [exact E|lra].
Qed.
Lemma round_to_mono x y d : x <= y -> round_to x d <= round_to y d.
Proof.
  intros H. pose proof (ten_pos d) as K. unfold round_to. apply Rmult_le_compat_r; [left; by apply Rinv_0_lt_compat|]. apply IZR_le, rint_mono. apply Rmult_le_compat_r; [lra|done].
Qed.
Lemma round_total xs d : Rabs (total (map (fun x => round_to x d) xs) - total xs) <= INR (length xs) * (1 / 2 / powerRZ 10 d).
Proof.
  induction xs as [|x xs IH]; [cbn; rewrite Rminus_0_r, Rabs_R0; lra|]. cbn [map total foldr fold_right length]. rewrite S_INR. destruct (round_to_spec x d) as (_ & _ & _ & H & _).
  change (fold_right Rplus 0) with total. unfold total in *.
  match goal with |- Rabs (?a + ?b - (?c + ?e)) <= _ => replace (a + b - (c + e)) with ((a - c) + (b - e)) by ring end.
  eapply Rle_trans; [apply Rabs_triang|]. lra.
Qed.

(* AreaReal.v -- Point._shoelace in exact arithmetic. *)
From Coq Require Import ZArith Reals Lra Lia Psatz Bool List Permutation.
From Verif Require Import Arith Geom RArith GeomReal.
Import ListNotations.
Local Open Scope R_scope.

Fixpoint sumR {T} (f : T -> R) (l : list T) : R := match l with [] => 0 | x :: l' => f x + sumR f l' end.
Lemma sumR_app {T} (f : T -> R) l k : sumR f (l ++ k) = sumR f l + sumR f k.
Proof. induction l; simpl; [ring|]. rewrite IHl. ring. Qed.
Lemma sumR_perm {T} (f : T -> R) l k : Permutation l k -> sumR f l = sumR f k.
Proof. induction 1; simpl; try lra. Qed.
Lemma sumR_ext {T} (f g : T -> R) l : (forall x, In x l -> f x = g x) -> sumR f l = sumR g l.
Proof. induction l; simpl; intros H; [reflexivity|]. rewrite H by auto. rewrite IHl by auto. reflexivity. Qed.
Lemma sumR_plus {T} (f g : T -> R) l : sumR (fun x => f x + g x) l = sumR f l + sumR g l.
Proof. induction l; simpl; [ring|]. rewrite IHl. ring. Qed.
Lemma sumR_scal {T} (f : T -> R) k l : sumR (fun x => k * f x) l = k * sumR f l.
Proof. induction l; simpl; [ring|]. rewrite IHl. ring. Qed.
Lemma sumR_map {T U} (g : T -> U) (f : U -> R) l : sumR f (map g l) = sumR (fun x => f (g x)) l.
Proof. induction l; simpl; [reflexivity|]. rewrite IHl. reflexivity. Qed.

(* consecutive pairs of an open chain *)
Fixpoint pairs {T} (x : T) (l : list T) : list (T * T) := match l with [] => [] | y :: l' => (x, y) :: pairs y l' end.
Lemma combine_pairs {T} (x z : T) l : combine (x :: l) (l ++ [z]) = pairs x (l ++ [z]).
Proof. revert x. induction l as [|y l IH]; intros x; [reflexivity|]. simpl. f_equal. apply IH. Qed.
Lemma sides_pairs {T} (x : T) l : sides (x :: l) = pairs x (l ++ [x]).
Proof. apply combine_pairs. Qed.
Lemma pairs_app {T} (x y : T) l k : pairs x (l ++ y :: k) = pairs x (l ++ [y]) ++ pairs y k.
Proof. revert x. induction l as [|z l IH]; intros x; [reflexivity|]. simpl. f_equal. apply IH. Qed.
(* the same cycle read from another start *)
Lemma sides_rotate {T} (l k : list T) : Permutation (sides (l ++ k)) (sides (k ++ l)).
Proof.
  destruct l as [|x l]; [rewrite app_nil_r; reflexivity|]. destruct k as [|y k]; [rewrite app_nil_r; reflexivity|].
  simpl app. rewrite !sides_pairs. rewrite <- !app_assoc. simpl. rewrite (pairs_app x y l (k ++ [x])), (pairs_app y x k (l ++ [y])). apply Permutation_app_comm.
Qed.
Definition swap {T U} (p : T * U) : U * T := (snd p, fst p).
Lemma pairs_rev {T} (x z : T) l : Permutation (pairs z (rev l ++ [x])) (map swap (pairs x (l ++ [z]))).
Proof.
  revert x. induction l as [|y l IH]; intros x; [reflexivity|]. simpl. rewrite <- app_assoc. simpl. rewrite pairs_app. simpl.
  rewrite (IH y). symmetry. apply Permutation_cons_append.
Qed.
Lemma sides_rev {T} (l : list T) : Permutation (sides (rev l)) (map swap (sides l)).
Proof.
  destruct l as [|x l]; [reflexivity|]. simpl rev. rewrite (sides_rotate (rev l) [x]). change ([x] ++ rev l) with (x :: rev l). rewrite !sides_pairs. apply pairs_rev.
Qed.

(* ---------- the code's dot products ---------- *)
Lemma fdotl_sum (xs ys : list R) : fdotl RArith xs ys = sumR (fun p => fst p * snd p) (combine xs ys).
Proof.
  unfold fdotl. cbn [fadd fmul fZ RArith]. change (F RArith) with R.
  assert (H : forall (l : list (R * R)) a, fold_left (fun acc p => acc + fst p * snd p) l a = a + sumR (fun p => fst p * snd p) l).
  { induction l as [|p l IH]; intros a; simpl; [ring|]. rewrite IH. ring. }
  rewrite H. simpl. ring.
Qed.
Lemma roll1_snoc {T} (l : list T) x : roll1 (l ++ [x]) = x :: l.
Proof. unfold roll1. rewrite rev_app_distr. simpl. rewrite rev_involutive. reflexivity. Qed.
Lemma combine_map2 {T U V} (f : T -> U) (g : T -> V) l k : combine (map f l) (map g k) = map (fun p => (f (fst p), g (snd p))) (combine l k).
Proof. revert k. induction l as [|x l IH]; intros [|y k]; simpl; try reflexivity. f_equal. apply IH. Qed.
Lemma roll_sides {T} (l : list T) : Permutation (map swap (combine l (roll1 l))) (sides l).
Proof.
  destruct l as [|x l] using rev_ind; [reflexivity|]. clear IHl. rewrite roll1_snoc.
  rewrite (sides_rotate l [x]). change ([x] ++ l) with (x :: l). rewrite sides_pairs. clear.
  assert (H : forall z, map swap (combine (l ++ [x]) (z :: l)) = pairs z (l ++ [x])).
  { induction l as [|y l IH]; intros z; [reflexivity|]. simpl. f_equal. apply IH. }
  rewrite H. reflexivity.
Qed.
Lemma roll1_map {T U} (f : T -> U) l : roll1 (map f l) = map f (roll1 l).
Proof. unfold roll1. rewrite <- map_rev. destruct (rev l); simpl; [reflexivity|]. rewrite map_rev. reflexivity. Qed.

Definition shoe (s : rpt * rpt) : R := fst (fst s) * snd (snd s) - snd (fst s) * fst (snd s).
Lemma shoelace_sum (ps : list rpt) : shoelace RArith (map fst ps) (map snd ps) = / 2 * Rabs (sumR shoe (sides ps)).
Proof.
  unfold shoelace. cbn [fmul fhalf fabs fsub RArith]. f_equal. rewrite !fdotl_sum, !roll1_map, !combine_map2, !sumR_map. cbn [fst snd].
  rewrite <- Rabs_Ropp. f_equal.
  rewrite <- (sumR_perm shoe _ _ (roll_sides ps)), sumR_map.
  transitivity (sumR (fun x : rpt * rpt => snd (fst x) * fst (snd x)) (combine ps (roll1 ps)) + (-1) * sumR (fun x : rpt * rpt => fst (fst x) * snd (snd x)) (combine ps (roll1 ps))); [ring|].
  rewrite <- sumR_scal, <- sumR_plus. apply sumR_ext. intros [p q] _. unfold shoe, swap; simpl. ring.
Qed.
(* seen from any point o *)
Lemma telescoping {T} (g : T -> R) (l : list T) : sumR (fun s => g (snd s) - g (fst s)) (sides l) = 0.
Proof.
  destruct l as [|x l]; [reflexivity|]. rewrite sides_pairs.
  assert (H : forall y, sumR (fun s => g (snd s) - g (fst s)) (pairs y (l ++ [x])) = g x - g y).
  { induction l as [|z l IH]; intros y; simpl; [ring|]. rewrite IH. ring. }
  rewrite H. ring.
Qed.
Lemma shoe_triangles (o : rpt) (ps : list rpt) : sumR shoe (sides ps) = sumR (fun s => cross3 o (fst s) (snd s)) (sides ps).
Proof.
  pose proof (telescoping (fun p : rpt => fst o * snd p - snd o * fst p) ps) as HT.
  transitivity (sumR (fun s => cross3 o (fst s) (snd s)) (sides ps) + sumR (fun s => (fst o * snd (snd s) - snd o * fst (snd s)) - (fst o * snd (fst s) - snd o * fst (fst s))) (sides ps)).
  - rewrite <- sumR_plus. apply sumR_ext. intros [p q] _. unfold shoe, cross3; simpl. ring.
  - rewrite HT. ring.
Qed.
Definition shift (o p : rpt) : rpt := (fst p + fst o, snd p + snd o).
Lemma map_sides {T U} (f : T -> U) l : sides (map f l) = map (fun s => (f (fst s), f (snd s))) (sides l).
Proof. destruct l as [|x l]; [reflexivity|]. simpl. f_equal. replace (map f l ++ [f x]) with (map f (l ++ [x])) by (rewrite map_app; reflexivity).
  change (match l ++ [x] with [] => [] | y :: tl' => (x, y) :: combine l tl' end) with (combine (x :: l) (l ++ [x])).
  change (match map f (l ++ [x]) with [] => [] | y :: tl' => (f x, y) :: combine (map f l) tl' end) with (combine (map f (x :: l)) (map f (l ++ [x]))).
  apply combine_map2.
Qed.
Lemma shoe_shift o ps : sumR shoe (sides (map (shift o) ps)) = sumR shoe (sides ps).
Proof.
  rewrite (shoe_triangles o), (shoe_triangles (0, 0) ps), map_sides, sumR_map. apply sumR_ext. intros [p q] _. unfold cross3, shift; simpl. ring.
Qed.

Theorem shoelace_spec (ps : list rpt) (o : rpt) :
  shoelace RArith (map fst ps) (map snd ps) = Rabs (sumR (fun s => cross3 o (fst s) (snd s) / 2) (sides ps)) /\
  (forall l k, ps = l ++ k -> shoelace RArith (map fst (k ++ l)) (map snd (k ++ l)) = shoelace RArith (map fst ps) (map snd ps)) /\
  shoelace RArith (map fst (rev ps)) (map snd (rev ps)) = shoelace RArith (map fst ps) (map snd ps) /\
  shoelace RArith (map fst (map (shift o) ps)) (map snd (map (shift o) ps)) = shoelace RArith (map fst ps) (map snd ps).
Proof.
  rewrite !shoelace_sum. split; [|split; [|split]].
  - rewrite (shoe_triangles o). rewrite <- (Rabs_right (/ 2)) by lra. rewrite <- Rabs_mult, <- sumR_scal. f_equal. apply sumR_ext. intros [p q] _. field.
  - intros l k ->. rewrite shoelace_sum, (sumR_perm shoe _ _ (sides_rotate l k)). reflexivity.
  - rewrite (sumR_perm shoe _ _ (sides_rev ps)), sumR_map. replace (sumR _ (sides ps)) with (-1 * sumR shoe (sides ps)).
    2:{ rewrite <- sumR_scal. apply sumR_ext. intros [p q] _. unfold shoe, swap; simpl. ring. }
    replace (-1 * sumR shoe (sides ps)) with (- sumR shoe (sides ps)) by ring. rewrite Rabs_Ropp. reflexivity.
  - rewrite shoe_shift. reflexivity.
Qed.

(* PropCircle.v -- C34, C35: the bounding circle. *)
From Coq Require Import ZArith Reals Lra List.
From Verif Require Import Arith Geom Monad State Sweep Finish RArith DecArith Circle CircleReal CircleFacts Witness.
Import ListNotations.

(* C34.  get_line(A, B) gives a, b, c with a x + b y = c exactly on the line through A and
   B. *)
Theorem C34_get_line (p q : R * R) : p <> q ->
  exists a b c, get_line RArith p q = Val (a, b, c) /\ (a <> 0 \/ b <> 0)%R /\
    forall z, (a * fst z + b * snd z = c)%R <-> on_line_through p q z.
Proof.
  intros N. destruct (get_line_total p q) as (a & b & c & L). exists a, b, c. split; [exact L|].
  exact (get_line_R p q a b c N L).
Qed.
Print Assumptions C34_get_line.

(* cut_circle returns the points common to the line a x + b y = c and the circle, and
   raises InvalidOperation when there are none. *)
Theorem C34_cut_circle (ci : circle RArith) (a b c : R) : (a <> 0 \/ b <> 0)%R ->
  match cut_circle RArith ci a b c with
  | Val (p1, p2) => forall z, ((a * fst z + b * snd z = c)%R /\ on_circle ci z) <-> (z = p1 \/ z = p2)
  | Raise e => e = InvalidOperation /\ forall z, ~ ((a * fst z + b * snd z = c)%R /\ on_circle ci z)
  end.
Proof. exact (cut_circle_R ci a b c). Qed.
Print Assumptions C34_cut_circle.

(* cut_line for an edge from p to q: the point of the segment on the circle that is nearest
   to p; None when the segment does not meet the circle though its line does; an exception
   when the line does not. *)
Theorem C34_cut_line (ci : circle RArith) (p q : R * R) : p <> q ->
  match cut_line RArith ci (fin_pt p) (fin_pt q) with
  | Val (Some z) => on_segment p q z /\ on_circle ci z /\
      forall z', on_segment p q z' -> on_circle ci z' -> (sqd p z <= sqd p z')%R
  | Val None => forall z, on_segment p q z -> ~ on_circle ci z
  | Raise e => e = InvalidOperation /\ forall z, on_line_through p q z -> ~ on_circle ci z
  end.
Proof. exact (cut_line_R ci p q). Qed.
Print Assumptions C34_cut_line.

(* a circle of radius 5 around the origin, met by y = 3 and missed by y = 6 *)
Definition five : circle RArith := mkCircle (A := RArith) 0%R 0%R 5%R.
Example C34_hits : exists z, cut_line RArith five (fin_pt (-10, 3)%R) (fin_pt (10, 3)%R) = Val (Some z) /\ on_circle five z.
Proof.
  pose proof (C34_cut_line five (-10, 3)%R (10, 3)%R) as H.
  destruct (cut_line RArith five (fin_pt (-10, 3)%R) (fin_pt (10, 3)%R)) as [[z|]|e].
  - exists z. split; [reflexivity|]. apply H. intros [= E]. lra.
  - exfalso. apply (H ltac:(intros [= E]; lra) (4, 3)%R).
    + exists (14 / 20)%R. split; [lra|]. cbn. f_equal; lra.
    + unfold on_circle, sqd, five. cbn. lra.
  - exfalso. apply (proj2 (H ltac:(intros [= E]; lra)) (4, 3)%R).
    + exists (14 / 20)%R. cbn. f_equal; lra.
    + unfold on_circle, sqd, five. cbn. lra.
Qed.
Example C34_misses : cut_circle RArith five 0%R 1%R 6%R = Raise InvalidOperation.
Proof.
  pose proof (C34_cut_circle five 0 1 6)%R as H.
  destruct (cut_circle RArith five 0%R 1%R 6%R) as [[p1 p2]|e]; [exfalso|f_equal; apply H; lra].
  destruct (proj2 (H ltac:(lra) p1) (or_introl eq_refl)) as [L O]. clear H.
  destruct p1 as [u v]. unfold on_circle, sqd, five in O. cbn in O, L.
  pose proof (Rle_0_sqr u) as S. unfold Rsqr in S. assert (Y : v = 6%R) by lra. rewrite Y in O. lra.
Qed.

(* C35.  Refuted for every circle, all sites, any state and any arithmetic: create_diagram
   with a BoundingCircle never returns. *)
Theorem C35_refuted (A : Arith) (ci : circle A) (fuel : nat) (xys : list (pt A)) (s : state A) :
  exists e, create_diagram_circle A ci fuel xys s = Raise e.
Proof. exact (circle_raises A ci fuel xys s). Qed.
Print Assumptions C35_refuted.

(* not because of the sweep or the clipping: two sites inside a circle of radius 9 are swept
   and their edge is cut at both ends *)
Example C35_clipped : exists s l vs,
  (bind (sweep DecArith 22 [(z 3, z 1); (z (-3), z 0)]%Z) (fun _ => bind (read s_edges) (circle_finish_edges DecArith (mkCircle (A := DecArith) (z 0) (z 0) (z 9)))))
    (init_state DecArith []) = Val (s, EPair l vs) /\ length l = 2 /\ length vs = 2.
Proof. exact (clips_case DecArith _ 22 _ 2 2 (eq_refl true <: clips DecArith (mkCircle (A := DecArith) (z 0) (z 0) (z 9)) 22 [(z 3, z 1); (z (-3), z 0)]%Z 2 2 = true)). Qed.

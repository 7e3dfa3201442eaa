(* PropUse.v -- which point _get_intersection_point and _get_closest_point choose (C37, C44) and
   empty or repeated use of create_diagram (C38). *)
From stdpp Require Import base list sets.
From Coq Require Import ZArith.
From Verif Require Import Arith DecArith DecLaws Geom Monad Tree Heapq State Sweep Finish ChoiceFacts Reuse Witness FinishWitness.

(* ---------- C37 ---------- *)
(* [meets A ps o e q]: the ray from o through e meets a side of the polygon ps in q *)
Definition meets (A : Arith) (ps : list (pt A)) (o e q : pt A) : Prop :=
  exists s, In s (sides ps) /\ ray_segment A (Some (fst o, Fin (snd o))) (Some (fst e, Fin (snd e))) (fst s) (snd s) = Some q.
(* as _get_intersection_point(o, e) *)
Definition chosen (A : Arith) (ps : list (pt A)) (o e : pt A) : result (option (pt A)) :=
  get_intersection_point A ps (Some (fst o, Fin (snd o))) (Some (fst e, Fin (snd e))).

(* from a point outside through a point inside: the point chosen is the one behind the point inside *)
Theorem C37_refuted : exists o e q d m, chosen DecArith corners9 o e = Val (Some q) /\
  distance DecArith o q = Val d /\ distance DecArith o e = Val m /\ dltb DecArith m d = true.
Proof. exists (z (-20), z 0)%Z, (z 0, z 0)%Z. eexists _, _, _. split; [vm_compute; reflexivity|]. split; [vm_compute; reflexivity|]. split; vm_compute; reflexivity. Qed.
Print Assumptions C37_refuted.
(* Partial: the claim holds when no meeting point lies beyond e; then the furthest one is chosen *)
Theorem C37_within_partial (A : Arith) (ps : list (pt A)) o e m r : TotalOrder A ->
  chosen A ps o e = Val r -> distance A o e = Val m ->
  (forall q d, meets A ps o e q -> distance A o q = Val d -> dltb A m d = false) ->
  match r with
  | Some q => meets A ps o e q /\ exists d, distance A o q = Val d /\ dltb A m d = false /\
      forall q' d', meets A ps o e q' -> distance A o q' = Val d' -> dltb A d d' = false
  | None => forall q, ~ meets A ps o e q
  end.
Proof.
  destruct o as [ox oy], e as [ex ey]. intros TO Hc Hm HA.
  pose proof (chosen_furthest A TO ps ox oy ex ey m r Hc Hm) as Q.
  assert (H : forall s p d, In s (sides ps) -> ray_segment A (Some (ox, Fin oy)) (Some (ex, Fin ey)) (fst s) (snd s) = Some p ->
     distance A (ox, oy) p = Val d -> dltb A m d = false) by (intros s p d Hs Hp; apply HA; by exists s).
  specialize (Q H). destruct r as [q|].
  - split; [by apply chosen_meets in Hc|]. destruct Q as (d & Q1 & Q2 & Q3). exists d. split; [done|]. split; [done|].
    intros q' d' (s & Hs & Hq). by eapply Q3.
  - intros q (s & Hs & Hq). cbn [fst snd] in Hq. rewrite (Q s Hs) in Hq. done.
Qed.
Print Assumptions C37_within_partial.
(* in every case the point chosen is one where the ray meets a side *)
Theorem C37_meets_partial (A : Arith) (ps : list (pt A)) o e q : chosen A ps o e = Val (Some q) -> meets A ps o e q.
Proof. exact (chosen_meets A ps _ _ q). Qed.
Print Assumptions C37_meets_partial.
Example C37_case : exists q, chosen DecArith corners9 (z 0, z 0)%Z (z 20, z 0)%Z = Val (Some q).
Proof. eexists. vm_compute. reflexivity. Qed.

(* ---------- C44 ---------- *)
(* i is an index of a point with the least distance; the only other outcomes are an empty list
   and an arithmetic exception *)
Theorem C44_closest (A : Arith) (p : pt A) (ps : list (pt A)) i : TotalOrder A -> get_closest_point A p ps = Val i ->
  exists q d, ps !! i = Some q /\ distance A p q = Val d /\ forall q' d', q' ∈ ps -> distance A p q' = Val d' -> dltb A d' d = false.
Proof. intros TO. exact (closest_nearest A TO p ps i). Qed.
Print Assumptions C44_closest.
Theorem C44_outcome (A : Arith) (p : pt A) (ps : list (pt A)) e : get_closest_point A p ps = Raise e ->
  e = InvalidOperation \/ e = DivisionByZero \/ (ps = [] /\ e = ValueError).
Proof. intros H. destruct (FinishEdges.get_closest_point_spec A p ps) as [Q _]. destruct (Q e H) as [[?|?]|?]; auto. Qed.
Print Assumptions C44_outcome.
Example C44_case : get_closest_point DecArith (z 8, z 8)%Z corners9 = Val 1.
Proof. vm_compute. reflexivity. Qed.

(* ---------- C38 ---------- *)
Theorem C38_empty (A : Arith) (poly : polygon A) rz fuel : pg_points A poly <> [] ->
  create_diagram A poly rz (S fuel) [] (init_state A (pg_points A poly)) = Raise ValueError.
Proof. exact (no_sites A poly rz fuel). Qed.
Print Assumptions C38_empty.
Example C38_empty_case : pg_points DecArith poly9 <> [].
Proof. done. Qed.

(* After create_diagram has returned, a further create_diagram on the same object with any
   sites adds no Voronoi vertex: what it returns has only vertices of the border and vertices
   of the previous diagram. *)
Theorem C38_again (A : Arith) (poly : polygon A) rz rz' fuel fuel' xys xys' s0 s s' :
  create_diagram A poly rz fuel xys s0 = Val (s, tt) -> create_diagram A poly rz' fuel' xys' s = Val (s', tt) ->
  forall v, v ∈ s_vset s' -> v ∈ s_pverts s' \/ v ∈ s_vset s.
Proof. intros H1. exact (again_vertices A poly rz' fuel' xys' s s' (created_list A poly rz fuel xys s0 s H1)). Qed.
Print Assumptions C38_again.

(* the same single site twice: four edges the first time, eight the second *)
Section Twice.
Context (A : Arith) (poly : polygon A).
Definition twice (fuel : nat) (xys : list (pt A)) (k k' : nat) : bool :=
  match create_diagram A poly true fuel xys (init_state A (pg_points A poly)) with
  | Val (s, _) => match create_diagram A poly true fuel xys s with
                  | Val (s', _) => (length (s_edges s) =? k) && (length (s_edges s') =? k')
                  | Raise _ => false end
  | Raise _ => false
  end.
Lemma twice_case fuel xys k k' : twice fuel xys k k' = true -> exists s s',
  create_diagram A poly true fuel xys (init_state A (pg_points A poly)) = Val (s, tt) /\ create_diagram A poly true fuel xys s = Val (s', tt) /\
  length (s_edges s) = k /\ length (s_edges s') = k'.
Proof.
  unfold twice. destruct (create_diagram A poly true fuel xys (init_state A (pg_points A poly))) as [[s []]|]; [|done].
  destruct (create_diagram A poly true fuel xys s) as [[s' []]|] eqn:E; [|done]. rewrite andb_true_iff, !Nat.eqb_eq. intros []. exists s, s'. done.
Qed.
End Twice.
Lemma twice9 : twice DecArith poly9 8 [(z 0, z 0)%Z] 4 8 = true.
Proof. vm_compute. reflexivity. Qed.
Theorem C38_again_refuted : exists xys fuel s s', 
  create_diagram DecArith poly9 true fuel xys (init_state DecArith (pg_points DecArith poly9)) = Val (s, tt) /\
  create_diagram DecArith poly9 true fuel xys s = Val (s', tt) /\ length (s_edges s) = 4 /\ length (s_edges s') = 8.
Proof. exact (ex_intro _ [(z 0, z 0)%Z] (ex_intro _ 8 (twice_case DecArith poly9 8 _ 4 8 twice9))). Qed.
Print Assumptions C38_again_refuted.

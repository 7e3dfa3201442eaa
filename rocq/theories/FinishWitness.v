(* FinishWitness.v -- concrete finished diagrams in decimal arithmetic. *)
From stdpp Require Import base list.
From Coq Require Import ZArith Lia.
From Verif Require Import Arith DecArith Geom Monad Tree Heapq State Sweep Finish TreeProofs SweepBase Spec SpecFinish DecLaws Witness.
Local Open Scope monad_scope.

Section Stages.
Context (A : Arith) (poly : polygon A).
Implicit Types s : state A.
(* the stages of create_diagram, and a test on what they return *)
Definition stages (fuel : nat) (xys : list (pt A)) (f : state A -> state A -> list nat -> state A -> list nat -> list nat -> bool) : bool :=
  match sweep A fuel xys (init_state A (pg_points A poly)) with
  | Val (s, _) =>
      match finish_edges A poly (s_edges s) s with
      | Val (s1, r) =>
          match finish_polygon A poly r (s_vset s1) (s_sites s1) (set_edges r s1) with
          | Val (s2, (es, vs)) => f s s1 r s2 es vs
          | Raise _ => false
          end
      | Raise _ => false
      end
  | Raise _ => false
  end.
Lemma stages_run fuel xys f : stages fuel xys f = true -> exists s s1 r s2 es vs,
  sweep A fuel xys (init_state A (pg_points A poly)) = Val (s, tt) /\ finish_edges A poly (s_edges s) s = Val (s1, r) /\
  finish_polygon A poly r (s_vset s1) (s_sites s1) (set_edges r s1) = Val (s2, (es, vs)) /\ f s s1 r s2 es vs = true.
Proof.
  unfold stages. destruct (sweep _ _ _ _) as [[s []]|] eqn:E1; [|done]. destruct (finish_edges _ _ _ _) as [[s1 r]|] eqn:E2; [|done].
  destruct (finish_polygon _ _ _ _ _ _) as [[s2 [es vs]]|] eqn:E3; [|done]. intros H. exists s, s1, r, s2, es, vs. done.
Qed.
Lemma stages_create fuel xys s s1 r s2 es vs :
  sweep A fuel xys (init_state A (pg_points A poly)) = Val (s, tt) -> finish_edges A poly (s_edges s) s = Val (s1, r) ->
  finish_polygon A poly r (s_vset s1) (s_sites s1) (set_edges r s1) = Val (s2, (es, vs)) ->
  exists s', create_diagram A poly false fuel xys (init_state A (pg_points A poly)) = Val (s', tt) /\ s_edges s' = es /\ s_vset s' = vs /\
    s_hedges s' = s_hedges s2 /\ s_verts s' = s_verts s2 /\ s_points s' = s_points s2.
Proof.
  intros H1 H2 H3. unfold create_diagram, bind. rewrite H1. cbn [read]. rewrite H2. cbn [read write]. cbn [s_vset s_sites set_edges]. rewrite H3. simpl. eexists. split; [reflexivity|]. done.
Qed.
(* one edge, between the sites 0 and 1, which is dropped; the cell of 0 is empty, that of 1 has k edges *)
Definition lost_all s s1 (r : list nat) s2 (es : list nat) (k : nat) : bool :=
  match s_edges s, r, s_hedges s !! 0, s_hedges s !! 1 with
  | [0], [], Some h, Some g =>
      bool_decide (h_inc h = Some 0) && bool_decide (h_inc g = Some 1) && bool_decide (h_twin h = Some 1) && (length es =? k) &&
      match borders A s2 (2 * k) 0, borders A s2 (2 * k) 1 with Val a, Val b => bool_decide (a = []) && bool_decide (b = es) | _, _ => false end
  | _, _, _, _ => false
  end.
Lemma lost_case fuel xys k : stages fuel xys (fun s s1 r s2 es vs => lost_all s s1 r s2 es k) = true ->
  exists s s1 s2 es vs, sweep A fuel xys (init_state A (pg_points A poly)) = Val (s, tt) /\ s_edges s = [0] /\
    twin A s 0 = Some 1 /\ borders_site A s 0 = Some 0 /\ borders_site A s 1 = Some 1 /\ finish_edges A poly (s_edges s) s = Val (s1, []) /\
    finish_polygon A poly [] (s_vset s1) (s_sites s1) (set_edges [] s1) = Val (s2, (es, vs)) /\ length es = k /\
    borders A s2 (2 * k) 0 = Val [] /\ borders A s2 (2 * k) 1 = Val es.
Proof.
  intros (s & s1 & r & s2 & es & vs & H1 & H2 & H3 & H4)%stages_run. unfold lost_all in H4.
  destruct (s_edges s) as [|[|e] [|e' l]] eqn:Ee; try done. destruct r as [|? ?]; [|done]. destruct (s_hedges s !! 0) as [h|] eqn:Eh; [|done]. destruct (s_hedges s !! 1) as [g|] eqn:Eg; [|done].
  rewrite !andb_true_iff, !bool_decide_eq_true, Nat.eqb_eq in H4. destruct H4 as ((((H4 & H5) & H6) & H7) & H8).
  destruct (borders A s2 (2 * k) 0) as [a|] eqn:Ea; [|done]. destruct (borders A s2 (2 * k) 1) as [b|] eqn:Eb; [|done]. rewrite andb_true_iff, !bool_decide_eq_true in H8. destruct H8 as [-> ->].
  exists s, s1, s2, es, vs. unfold twin, borders_site, half. rewrite Eh, Eg, Ee. done.
Qed.
End Stages.

(* an edge whose twin starts at a vertex that is not among the vertices *)
Definition orphan (A : Arith) (s : state A) (e : nat) : bool :=
  match s_hedges s !! e with
  | Some h => match h_twin h with
              | Some t => match s_hedges s !! t with
                          | Some g => match h_origin g with OVx v => negb (bool_decide (v ∈ s_vset s)) | OBp _ => false end
                          | None => false end
              | None => false end
  | None => false end.
Lemma orphan_spec (A : Arith) (s : state A) e : orphan A s e = true -> exists t v, twin A s e = Some t /\ starts_at A s t v /\ v ∉ s_vset s.
Proof.
  unfold orphan, twin, half. destruct (s_hedges s !! e) as [h|] eqn:Eh; [|done]. destruct (h_twin h) as [t|] eqn:Et; [|done]. destruct (s_hedges s !! t) as [g|] eqn:Eg; [|done].
  destruct (h_origin g) as [|v] eqn:Eo; [done|]. rewrite negb_true_iff, bool_decide_eq_false. intros H. exists t, v. split; [done|]. split; [by exists g|done].
Qed.
Section Final.
Context (A : Arith) (poly : polygon A).
Definition final_check (flag : bool) (fuel : nat) (xys : list (pt A)) (f : state A -> bool) : bool :=
  match create_diagram A poly flag fuel xys (init_state A (pg_points A poly)) with
  | Val (s, _) => f s
  | Raise _ => false
  end.
Lemma final_run flag fuel xys f : final_check flag fuel xys f = true ->
  exists s, create_diagram A poly flag fuel xys (init_state A (pg_points A poly)) = Val (s, tt) /\ f s = true.
Proof. unfold final_check. destruct (create_diagram _ _ _ _ _ _) as [[s []]|]; [|done]. eauto. Qed.
Lemma orphan_case flag fuel xys k : final_check flag fuel xys (fun s => (length (s_edges s) =? k) && existsb (orphan A s) (s_edges s)) = true ->
  exists s e t v, create_diagram A poly flag fuel xys (init_state A (pg_points A poly)) = Val (s, tt) /\
    length (s_edges s) = k /\ e ∈ s_edges s /\ twin A s e = Some t /\ starts_at A s t v /\ v ∉ s_vset s.
Proof.
  intros (s & H & [H1 H2]%andb_true_iff)%final_run. apply Nat.eqb_eq in H1. apply existsb_exists in H2 as (e & He & (t & v & H3 & H4 & H5)%orphan_spec).
  exists s, e, t, v. split; [done|]. split; [done|]. split; [by apply elem_of_list_In|done].
Qed.
End Final.

(* a square *)
Definition corners9 : list (pt DecArith) := [(z (-9), z 9); (z 9, z 9); (z 9, z (-9)); (z (-9), z (-9))]%Z.
Definition poly9 : polygon DecArith :=
  {| pg_points := corners9; pg_min_y := z (-9); pg_min_x := z (-9); pg_max_y := z 9; pg_max_x := z 9; pg_center := (mkdec 0 (-31), mkdec 0 (-31)) |}.
(* BoundingBox(-9, 9, -9, 9) *)
Lemma box9 : bounding_box DecArith (z (-9)) (z 9) (z (-9)) (z 9) = Val poly9.
Proof. reflexivity. Qed.

(* three sites, low enough in the square for all edges to be kept *)
Definition low3 : list (pt DecArith) := [(z 0, z 0); (z 3, z (-4)); (z (-3), z (-4))]%Z.
Lemma low3_lawful : lawful DecArith low3.
Proof.
  split; [exact DecArith_order|]. split; [|exact DecArith_circle]. apply (DecArith_mid 0). intros x Hx. simpl in Hx. unfold z in Hx.
  destruct Hx as [<-|[<-|[<-|[]]]]; vm_compute; intuition congruence.
Qed.
Definition all_kept : state DecArith -> state DecArith -> list nat -> state DecArith -> list nat -> list nat -> bool :=
  fun s s1 r s2 es vs => bool_decide (r = s_edges s) && (length r =? 3) && (length es =? 10) && (length vs =? 8).
Lemma low3_stages : stages DecArith poly9 22 low3 all_kept = true.
Proof. vm_compute. reflexivity. Qed.

Lemma low3_case : exists s s1 r s2 es vs,
  sweep DecArith 22 low3 (init_state DecArith (pg_points DecArith poly9)) = Val (s, tt) /\ finish_edges DecArith poly9 (s_edges s) s = Val (s1, r) /\
  finish_polygon DecArith poly9 r (s_vset s1) (s_sites s1) (set_edges r s1) = Val (s2, (es, vs)) /\ r = s_edges s /\ length r = 3 /\ length es = 10 /\ length vs = 8.
Proof.
  destruct (stages_run _ _ _ _ _ low3_stages) as (s & s1 & r & s2 & es & vs & H1 & H2 & H3 & H4). exists s, s1, r, s2, es, vs. split; [exact H1|]. split; [exact H2|]. split; [exact H3|].
  unfold all_kept in H4. rewrite !andb_true_iff, bool_decide_eq_true, !Nat.eqb_eq in H4. destruct H4 as (((H4 & H5) & H6) & H7). exact (conj H4 (conj H5 (conj H6 H7))).
Qed.

(* two sites in the same square: the only edge, which crosses the whole square, is dropped *)
Definition mid2 : list (pt DecArith) := [(z 3, z 0); (z (-3), z 0)]%Z.
Lemma mid2_stages : stages DecArith poly9 22 mid2 (fun s s1 r s2 es vs => lost_all DecArith s s1 r s2 es 4) = true.
Proof. vm_compute. reflexivity. Qed.
Definition mid2_case := lost_case DecArith poly9 22 mid2 4 mid2_stages.

(* four sites on a circle: one edge of length zero *)
Definition dia4 : list (pt DecArith) := [(z 0, z 1); (z 0, z (-1)); (z 1, z 0); (z (-1), z 0)]%Z.
Lemma dia4_lawful : lawful DecArith dia4.
Proof.
  split; [exact DecArith_order|]. split; [|exact DecArith_circle]. apply (DecArith_mid 0). intros x Hx. simpl in Hx. unfold z in Hx.
  destruct Hx as [<-|[<-|[<-|[<-|[]]]]]; vm_compute; intuition congruence.
Qed.
Lemma dia4_run : final_check DecArith poly9 true 30 dia4 (fun s => (length (s_edges s) =? 8) && existsb (orphan DecArith s) (s_edges s)) = true.
Proof. vm_compute. reflexivity. Qed.
Definition dia4_case := orphan_case DecArith poly9 true 30 dia4 8 dia4_run.

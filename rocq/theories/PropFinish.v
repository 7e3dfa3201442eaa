(* PropFinish.v -- properties of clipping (C24, C25), of the border (C26, C27), of the clean-up
   (C28), of borders() (C30), of the messages (C33) and of the finished diagram (C43).
   As in PropSweep.v they hold for every lawful arithmetic; the polygon is arbitrary. *)
From stdpp Require Import base list sets.
From Coq Require Import ZArith Reals Lia.
From Verif Require Import Arith Geom Monad Tree Heapq State Sweep Finish TreeProofs SweepBase Spec SpecFinish SweepFacts
  EventOrder FinishOne DiagramFacts RArith DecArith DecLaws Witness FinishWitness PropSweep.
Local Open Scope monad_scope.

(* the float comparison used by sorted() never finds a < b and b < a *)
Definition floats_ordered (A : Arith) : Prop := forall a b, fltb A a b = true -> fltb A b a = false.
Theorem floats_ordered_real : floats_ordered RArith.
Proof. intros a b. exact (EventOrder.d_asym RArith RArith_order a b). Qed.
Theorem floats_ordered_decimal : floats_ordered DecArith.
Proof. intros a b. exact (EventOrder.d_asym DecArith DecArith_order a b). Qed.

(* ---------- C25 ---------- *)
Theorem C25_clipping (A : Arith) (xys corners : list (pt A)) (poly : polygon A) fuel s : lawful A xys ->
  sweep A fuel xys (init_state A corners) = Val (s, tt) ->
  match finish_edges A poly (s_edges s) s with
  | Raise e => e = InvalidOperation \/ e = DivisionByZero
  | Val (s1, r) =>
      sublist r (s_edges s) /\
      (forall e, e ∈ r <-> e ∈ s_edges s /\ exists t v u xy xy',
         twin A s1 e = Some t /\ starts_at A s1 e v /\ located A s1 v xy /\ starts_at A s1 t u /\ located A s1 u xy') /\
      (forall x, kept A s1 r x -> exists v xy, attached A s1 x v xy /\ (v ∈ s_pverts s1 \/ v ∈ s_vset s1 /\ inside A (pg_points A poly) xy = Val true)) /\
      (forall x y, kept A s1 r x -> next A s1 x = Some y -> kept A s1 r y /\ prev A s1 y = Some x /\ borders_site A s1 y = borders_site A s1 x) /\
      (forall e, twin A s1 e = twin A s e /\ borders_site A s1 e = borders_site A s e)
  end.
Proof. intros (TO & MO & CC). exact (clipping A xys corners TO MO CC poly fuel s). Qed.
Print Assumptions C25_clipping.
Example C25_case : lawful DecArith low3 /\ exists s s1 r, sweep DecArith 22 low3 (init_state DecArith (pg_points DecArith poly9)) = Val (s, tt) /\
  finish_edges DecArith poly9 (s_edges s) s = Val (s1, r) /\ length r = 3.
Proof. split; [exact low3_lawful|]. destruct low3_case as (s & s1 & r & s2 & es & vs & H1 & H2 & _ & _ & H3 & _). exists s, s1, r. exact (conj H1 (conj H2 H3)). Qed.

(* ---------- C24 ---------- *)
(* An edge that crosses the polygon need not survive clipping: two sites in the middle of a
   square.  The point (0, 0) is inside the square and equally far from both sites. *)
Theorem C24_refuted : exists (poly : polygon DecArith) s s1 e,
  bounding_box DecArith (z (-9)) (z 9) (z (-9)) (z 9) = Val poly /\
  sweep DecArith 22 [(z 3, z 0); (z (-3), z 0)]%Z (init_state DecArith (pg_points DecArith poly)) = Val (s, tt) /\
  e ∈ s_edges s /\ (exists t, twin DecArith s e = Some t /\ borders_site DecArith s e = Some 0 /\ borders_site DecArith s t = Some 1) /\
  inside DecArith (pg_points DecArith poly) (z 0, z 0) = Val true /\
  (exists d, distance DecArith (z 0, z 0) (z 3, z 0) = Val d /\ distance DecArith (z 0, z 0) (z (-3), z 0) = Val d) /\
  finish_edges DecArith poly (s_edges s) s = Val (s1, []).
Proof.
  destruct mid2_case as (s & s1 & s2 & es & vs & H1 & H2 & H3 & H4 & H5 & H6 & _). exists poly9, s, s1, 0.
  split; [exact box9|]. split; [exact H1|]. split; [rewrite H2; left|]. split; [exists 1; exact (conj H3 (conj H4 H5))|]. split; [reflexivity|]. split; [|exact H6].
  eexists. split; reflexivity.
Qed.
Print Assumptions C24_refuted.
(* consequence: with two sites in the middle of a square one cell is empty, the other is the square *)
Theorem C24_cells_refuted : exists s1 s2 es vs,
  bounding_box DecArith (z (-9)) (z 9) (z (-9)) (z 9) = Val poly9 /\
  finish_polygon DecArith poly9 [] (s_vset s1) (s_sites s1) (set_edges [] s1) = Val (s2, (es, vs)) /\
  (exists s, sweep DecArith 22 [(z 3, z 0); (z (-3), z 0)]%Z (init_state DecArith (pg_points DecArith poly9)) = Val (s, tt) /\
     finish_edges DecArith poly9 (s_edges s) s = Val (s1, [])) /\
  length es = 4 /\ borders DecArith s2 8 0 = Val [] /\ borders DecArith s2 8 1 = Val es.
Proof.
  destruct mid2_case as (s & s1 & s2 & es & vs & H1 & _ & _ & _ & _ & H6 & H7 & H8 & H9 & H10). exists s1, s2, es, vs.
  split; [exact box9|]. split; [exact H7|]. split; [exists s; exact (conj H1 H6)|]. exact (conj H8 (conj H9 H10)).
Qed.
Print Assumptions C24_cells_refuted.

(* ---------- C26 ---------- *)
Theorem C26_border (A : Arith) (xys corners : list (pt A)) (poly : polygon A) fuel s s1 r : lawful A xys -> floats_ordered A ->
  1 <= length xys -> 2 <= length corners -> sweep A fuel xys (init_state A corners) = Val (s, tt) ->
  finish_edges A poly (s_edges s) s = Val (s1, r) ->
  match finish_polygon A poly r (s_vset s1) (s_sites s1) (set_edges r s1) with
  | Raise e => e = InvalidOperation \/ e = DivisionByZero
  | Val (s2, (es, vs)) => exists ring bd inner q0 v0 p0,
      es = r ++ bd /\ vs = ring ++ inner /\ length bd = length ring /\ NoDup ring /\ NoDup bd /\
      (forall v, v ∈ ring <-> v ∈ s_pverts s1 /\ exists xy, located A s1 v xy) /\
      (forall v, v ∈ inner <-> v ∈ s_vset s1 /\ exists xy, located A s1 v xy /\ inside A (pg_points A poly) xy = Val true) /\
      (forall j v v' p p', ring !! j = Some v -> ring !! S j = Some v' -> located A s1 v p -> located A s1 v' p' ->
         fltb A (clockwise_key A (pg_center A poly) p') (clockwise_key A (pg_center A poly) p) = false) /\
      ring !! 0 = Some v0 /\ located A s1 v0 p0 /\ get_closest_point A p0 xys = Val q0 /\
      (forall v xy, located A s2 v xy <-> located A s1 v xy) /\
      forall j e, bd !! j = Some e -> exists v v' t q xy xy',
        ring !! j = Some v /\ ring !! after (length ring) j = Some v' /\
        attached A s2 e v xy /\ attached A s2 t v' xy' /\ twin A s2 e = Some t /\ twin A s2 t = Some e /\
        borders_site A s2 e = Some q /\ q < length xys /\ borders_site A s2 t = None /\
        next A s2 e = match connected A s1 v' with c :: _ => Some c | [] => bd !! after (length ring) j end /\
        match connected A s1 v with
        | c :: _ => exists t', twin A s1 c = Some t' /\ next A s2 t' = Some e /\ borders_site A s1 t' = Some q
        | [] => match j with 0 => q = q0 | S i => exists e', bd !! i = Some e' /\ borders_site A s2 e' = Some q end
        end
  end.
Proof. intros (TO & MO & CC) FO. exact (border A xys corners TO MO CC poly FO fuel s s1 r). Qed.
Print Assumptions C26_border.
Example C26_case : lawful DecArith low3 /\ floats_ordered DecArith /\ exists s s1 r s2 es vs,
  sweep DecArith 22 low3 (init_state DecArith (pg_points DecArith poly9)) = Val (s, tt) /\
  finish_edges DecArith poly9 (s_edges s) s = Val (s1, r) /\
  finish_polygon DecArith poly9 r (s_vset s1) (s_sites s1) (set_edges r s1) = Val (s2, (es, vs)) /\ length es = 10 /\ length vs = 8.
Proof.
  split; [exact low3_lawful|]. split; [exact floats_ordered_decimal|]. destruct low3_case as (s & s1 & r & s2 & es & vs & H1 & H2 & H3 & _ & _ & H4 & H5). exists s, s1, r, s2, es, vs.
  exact (conj H1 (conj H2 (conj H3 (conj H4 H5)))).
Qed.

(* ---------- C30 ---------- *)
(* any half-edge structure: borders() returns exactly the walk from first_edge *)
Theorem C30_borders (A : Arith) (s : state A) p x e : s_points s !! p = Some x -> p_first x = Some e ->
  (forall l, (exists fuel, borders A s fuel p = Val l) <-> walk A s e l) /\
  (forall l fuel, walk A s e l -> length l <= fuel -> borders A s fuel p = Val l) /\
  (forall l l', walk A s e l -> walk A s e l' -> l = l').
Proof. exact (borders_walk A s p x e). Qed.
Print Assumptions C30_borders.
Theorem C30_no_first_edge (A : Arith) (s : state A) p x fuel : s_points s !! p = Some x -> p_first x = None -> borders A s fuel p = Val [].
Proof. exact (borders_none A s p x fuel). Qed.
Print Assumptions C30_no_first_edge.
(* vertices() lists where the edges of borders() start *)
Theorem C30_vertices (A : Arith) (s : state A) p fuel es vs : borders A s fuel p = Val es ->
  Forall2 (fun e v => starts_at A s e v) es vs -> cell_vertices A s fuel p = Val vs.
Proof. exact (cell_vertices_spec A s p fuel es vs). Qed.
Print Assumptions C30_vertices.
(* after finish_polygon the walks of all cells are closed, provided that no edge with an end
   inside the polygon was dropped *)
Theorem C30_cells (A : Arith) (xys corners : list (pt A)) (poly : polygon A) fuel s s1 r s2 es vs : lawful A xys ->
  1 <= length xys -> 2 <= length corners -> sweep A fuel xys (init_state A corners) = Val (s, tt) ->
  finish_edges A poly (s_edges s) s = Val (s1, r) ->
  (forall e t x v xy, e ∈ s_edges s -> e ∉ r -> twin A s1 e = Some t -> x = e \/ x = t -> starts_at A s1 x v -> v ∈ s_vset s1 -> located A s1 v xy ->
     inside A (pg_points A poly) xy <> Val true) ->
  finish_polygon A poly r (s_vset s1) (s_sites s1) (set_edges r s1) = Val (s2, (es, vs)) ->
  (forall e, e ∈ es \/ kept A s1 r e -> exists f t v, next A s2 e = Some f /\ (f ∈ es \/ kept A s1 r f) /\ prev A s2 f = Some e /\
     twin A s2 e = Some t /\ starts_at A s2 t v /\ starts_at A s2 f v) /\
  (forall q x e, s_points s2 !! q = Some x -> p_first x = Some e -> exists l, walk A s2 e l /\ closed A s2 e l /\
     (Forall (fun e => e ∈ es \/ kept A s1 r e) l \/ l = [e])).
Proof. intros (TO & MO & CC). exact (cells A xys corners TO MO CC poly fuel s s1 r s2 es vs). Qed.
Print Assumptions C30_cells.
Example C30_case : lawful DecArith low3 /\ exists s s1 r s2 es vs,
  sweep DecArith 22 low3 (init_state DecArith (pg_points DecArith poly9)) = Val (s, tt) /\
  finish_edges DecArith poly9 (s_edges s) s = Val (s1, r) /\
  (forall e t x v xy, e ∈ s_edges s -> e ∉ r -> twin DecArith s1 e = Some t -> x = e \/ x = t -> starts_at DecArith s1 x v -> v ∈ s_vset s1 -> located DecArith s1 v xy ->
     inside DecArith (pg_points DecArith poly9) xy <> Val true) /\
  finish_polygon DecArith poly9 r (s_vset s1) (s_sites s1) (set_edges r s1) = Val (s2, (es, vs)).
Proof.
  split; [exact low3_lawful|]. destruct low3_case as (s & s1 & r & s2 & es & vs & H1 & H2 & H3 & H4 & _). exists s, s1, r, s2, es, vs.
  split; [exact H1|]. split; [exact H2|]. split; [|exact H3]. intros e t x v xy He Hr. rewrite H4 in Hr. contradiction.
Qed.

(* ---------- C27 ---------- *)
Theorem C27_single_site (A : Arith) (xy : pt A) (corners : list (pt A)) (poly : polygon A) flag fuel : lawful A [xy] -> floats_ordered A ->
  2 <= length corners -> (forall i j a b, corners !! i = Some a -> corners !! j = Some b -> i <> j -> ~ same_place A a b) -> 7 < fuel ->
  match create_diagram A poly flag fuel [xy] (init_state A corners) with
  | Raise e => e = InvalidOperation \/ e = DivisionByZero
  | Val (s, _) => exists order, order ≡ₚ seq 0 (length corners) /\ s_vset s = order /\ (forall v c, corners !! v = Some c -> located A s v c) /\
      (forall j v v' c c', order !! j = Some v -> order !! S j = Some v' -> corners !! v = Some c -> corners !! v' = Some c' ->
         fltb A (clockwise_key A (pg_center A poly) c') (clockwise_key A (pg_center A poly) c) = false) /\
      length (s_edges s) = length corners /\
      (forall j e, s_edges s !! j = Some e -> exists v v' t, order !! j = Some v /\ order !! after (length corners) j = Some v' /\
         starts_at A s e v /\ twin A s e = Some t /\ starts_at A s t v') /\
      forall f, length corners <= f -> borders A s f 0 = Val (s_edges s) /\ cell_vertices A s f 0 = Val order
  end.
Proof. intros (TO & MO & CC) FO. exact (single A xy corners TO MO CC poly FO flag fuel). Qed.
Print Assumptions C27_single_site.
Example C27_case : lawful DecArith [(z 1, z 2)]%Z /\
  (forall i j a b, corners9 !! i = Some a -> corners9 !! j = Some b -> i <> j -> ~ same_place DecArith a b).
Proof.
  split.
  - apply (lawful_decimal 0). intros x Hx. simpl in Hx. destruct Hx as [<-|[]]. vm_compute. intuition congruence.
  - intros i j a b Hi Hj Hij [H1 H2]. assert (Hi' : i < 4) by (apply lookup_lt_Some in Hi; exact Hi). assert (Hj' : j < 4) by (apply lookup_lt_Some in Hj; exact Hj).
    destruct i as [|[|[|[|i]]]]; [| | | |lia]; destruct j as [|[|[|[|j]]]]; try lia; injection Hi as <-; injection Hj as <-; vm_compute in H1, H2; congruence.
Qed.

(* ---------- C43 ---------- *)
Theorem C43_finished (A : Arith) (xys corners : list (pt A)) (poly : polygon A) fuel s : lawful A xys ->
  1 <= length xys -> 2 <= length corners -> create_diagram A poly false fuel xys (init_state A corners) = Val (s, tt) ->
  (forall v, v ∈ s_vset s -> exists xy, located A s v xy) /\
  forall e, e ∈ s_edges s -> exists t v u xy xy', twin A s e = Some t /\ attached A s e v xy /\ v ∈ s_vset s /\ attached A s t u xy' /\ u ∈ s_vset s.
Proof. intros (TO & MO & CC). exact (finished A xys corners TO MO CC poly fuel s). Qed.
Print Assumptions C43_finished.
Theorem C43_raises (A : Arith) (xys corners : list (pt A)) (poly : polygon A) fuel e : lawful A xys ->
  1 <= length xys -> 2 <= length corners -> 7 * length xys < fuel ->
  create_diagram A poly false fuel xys (init_state A corners) = Raise e -> e = InvalidOperation \/ e = DivisionByZero.
Proof. intros (TO & MO & CC). exact (finished_exn A xys corners TO MO CC poly fuel e). Qed.
Print Assumptions C43_raises.
Example C43_case : lawful DecArith low3 /\ exists s, create_diagram DecArith poly9 false 22 low3 (init_state DecArith (pg_points DecArith poly9)) = Val (s, tt) /\ length (s_edges s) = 10.
Proof.
  split; [exact low3_lawful|]. destruct low3_case as (s & s1 & r & s2 & es & vs & H1 & H2 & H3 & _ & _ & H4 & _).
  destruct (stages_create DecArith poly9 22 low3 s s1 r s2 es vs H1 H2 H3) as (s' & C1 & C2 & _). exists s'. split; [exact C1|]. rewrite C2. exact H4.
Qed.

(* ---------- C28 ---------- *)
(* with remove_zero_length_edges: compared with the diagram without it, exactly the edges of
   length zero are gone, every other edge still has its ends at the same places *)
Theorem C28_zero_length (A : Arith) (xys corners : list (pt A)) (poly : polygon A) fuel s' : lawful A xys ->
  1 <= length xys -> 2 <= length corners -> create_diagram A poly true fuel xys (init_state A corners) = Val (s', tt) ->
  exists s, create_diagram A poly false fuel xys (init_state A corners) = Val (s, tt) /\
    (forall e, e ∈ s_edges s' -> ~ zero_length A s' e) /\
    sublist (s_edges s') (s_edges s) /\ (forall e, e ∈ s_edges s -> (e ∈ s_edges s' <-> ~ zero_length A s e)) /\
    (forall v xy, located A s' v xy <-> located A s v xy) /\
    (forall e, twin A s' e = twin A s e /\ borders_site A s' e = borders_site A s e) /\
    (forall e v xy, starts_at A s e v -> located A s v xy -> exists v' xy', starts_at A s' e v' /\ located A s' v' xy' /\ same_place A xy xy').
Proof. intros (TO & MO & CC). exact (cleaned A xys corners TO MO CC poly fuel s'). Qed.
Print Assumptions C28_zero_length.
Example C28_case : lawful DecArith dia4 /\ exists s, create_diagram DecArith poly9 true 30 dia4 (init_state DecArith (pg_points DecArith poly9)) = Val (s, tt) /\ length (s_edges s) = 8.
Proof. split; [exact dia4_lawful|]. destruct dia4_case as (s & e & t & v & H1 & H2 & _). exists s. exact (conj H1 H2). Qed.
(* but an edge may end at a vertex that was removed from the vertices: connected_edges is
   changed while it is iterated over *)
Theorem C28_vertices_refuted : exists (poly : polygon DecArith) s e t v,
  bounding_box DecArith (z (-9)) (z 9) (z (-9)) (z 9) = Val poly /\
  create_diagram DecArith poly true 30 [(z 0, z 1); (z 0, z (-1)); (z 1, z 0); (z (-1), z 0)]%Z (init_state DecArith (pg_points DecArith poly)) = Val (s, tt) /\
  e ∈ s_edges s /\ twin DecArith s e = Some t /\ starts_at DecArith s t v /\ v ∉ s_vset s.
Proof.
  destruct dia4_case as (s & e & t & v & H1 & _ & H2 & H3 & H4 & H5). exists poly9, s, e, t, v. split; [exact box9|]. exact (conj H1 (conj H2 (conj H3 (conj H4 H5)))).
Qed.
Print Assumptions C28_vertices_refuted.

(* ---------- C33 ---------- *)
Theorem C33_messages (A : Arith) (xys corners : list (pt A)) (poly : polygon A) flag fuel s' : lawful A xys ->
  1 <= length xys -> 2 <= length corners -> create_diagram A poly flag fuel xys (init_state A corners) = Val (s', tt) ->
  exists s index hist log1 log2, swept A xys corners s index hist /\
    s_log s' = log1 ++ (SAlgorithm, SWEEP_FINISHED, s_sweep s) :: log2 ++ [(SAlgorithm, VORONOI_FINISHED, s_sweep s)] /\
    seen A STEP_FINISHED log1 = map (fun i => Some (i_y i)) hist /\ seen A SWEEP_FINISHED log1 = [] /\ seen A VORONOI_FINISHED log1 = [] /\
    Forall (fun x => snd (fst x) = DEBUG) log2.
Proof. intros (TO & MO & CC). exact (messages A xys corners TO MO CC poly flag fuel s'). Qed.
Print Assumptions C33_messages.

(* PropSweep.v -- properties of the event loop of create_diagram: C03, C11-C17, C19, C33 (the
   sweep's part), C39.  They hold for every arithmetic that is [lawful] (Spec.v): exact reals
   always, decimals whenever the x coordinates have at most 27 digits. *)
From stdpp Require Import base list sets.
From Coq Require Import ZArith Reals.
From Verif Require Import Arith Geom Monad Tree Heapq State Sweep TreeProofs SweepBase Spec SweepFacts RArith DecArith DecLaws Witness.
Local Open Scope monad_scope.

Theorem lawful_real (xys : list (pt RArith)) : lawful RArith xys.
Proof. exact (conj RArith_order (conj (RArith_mid _) RArith_circle)). Qed.
Print Assumptions lawful_real.
(* [fixed q x] (DecLaws.v): x is a multiple of 10^q below 10^27 * 10^q *)
Theorem lawful_decimal (q : Z) (xys : list (pt DecArith)) : (forall x, In x (fst <$> xys) -> fixed q x) -> lawful DecArith xys.
Proof. exact (fun H => conj DecArith_order (conj (DecArith_mid q _ H) DecArith_circle)). Qed.
Print Assumptions lawful_decimal.
Example lawful_case : lawful DecArith pts3.
Proof. exact pts3_lawful. Qed.

(* ---------- C13 ---------- *)
(* [sweep fuel xys] is create_diagram up to the message SWEEP_FINISHED, with at most [fuel]
   iterations of the event loop: OutOfFuel would be a Raise *)
Theorem C13_sweep_ends (A : Arith) (xys corners : list (pt A)) (fuel : nat) : lawful A xys -> 7 * length xys < fuel ->
  match sweep A fuel xys (init_state A corners) with
  | Val _ => True
  | Raise e => e = InvalidOperation \/ e = DivisionByZero
  end.
Proof. intros (TO & MO & CC). exact (sweep_ends A xys corners TO MO CC fuel). Qed.
Print Assumptions C13_sweep_ends.
Example C13_case : lawful DecArith pts3 /\ 7 * length pts3 < 22.
Proof. split; [exact pts3_lawful|]. vm_compute. auto with arith. Qed.

(* what a normal return of the sweep is: the end of a run, and two messages *)
Theorem C13_sweep_result (A : Arith) (xys corners : list (pt A)) (fuel : nat) s' : lawful A xys ->
  sweep A fuel xys (init_state A corners) = Val (s', tt) ->
  exists s index hist, swept A xys corners s index hist /\
    s' = set_log (s_log s ++ [(SAlgorithm, DEBUG, s_sweep s); (SAlgorithm, SWEEP_FINISHED, s_sweep s)]) s.
Proof. intros (TO & MO & CC). exact (sweep_swept A xys corners TO fuel s'). Qed.
Print Assumptions C13_sweep_result.

(* a run that gets to the end of the event loop: three sites, one circle event *)
Example swept_case : exists s index hist, swept DecArith pts3 box s index hist /\
  length (s_vset s) = 1 /\ length (s_edges s) = 3 /\ length hist = 4.
Proof. exact (ends_swept DecArith pts3 box 4 1 3 4 ends3). Qed.

(* ---------- C03 ---------- *)
Theorem C03_site_order (A : Arith) (xys corners : list (pt A)) s index hist : lawful A xys -> swept A xys corners s index hist ->
  exists order, order = handled_sites A hist /\ order ≡ₚ seq 0 (length xys) /\ s_sites s = seq 0 (length xys) /\
    p_xy <$> s_points s = xys /\
    (forall i j p q xp xq, i < j -> order !! i = Some p -> order !! j = Some q -> xys !! p = Some xp -> xys !! q = Some xq ->
       dltb A (snd xq) (snd xp) = true \/ (deqb A (snd xp) (snd xq) = true /\ dltb A (fst xq) (fst xp) = false)) /\
    (forall i p, order !! i = Some p -> exists x, s_points s !! p = Some x /\ p_name x = Some i).
Proof. intros (TO & MO & CC). exact (site_order_hist A xys corners TO MO CC s index hist). Qed.
Print Assumptions C03_site_order.

(* ---------- the beach line ---------- *)
Theorem C11_beach_line (A : Arith) (xys corners : list (pt A)) s index hist : lawful A xys -> runs A xys corners s index hist ->
  exists L, beach A s L /\ (L = [] /\ hist = [] \/ alternating A s L /\ hist <> []).
Proof. intros (TO & MO & CC). exact (runs_beach A xys corners TO MO CC s index hist). Qed.
Print Assumptions C11_beach_line.

(* ---------- C11 ---------- *)
Theorem C11_site_event (A : Arith) (xys corners : list (pt A)) s index hist s1 i s2 index' p : lawful A xys ->
  runs A xys corners s index hist -> queue_get A s = Val (s1, Some i) -> i_ev i = ESite p -> step A i index s1 = Val (s2, index') ->
  exists L, beach A s L /\
    (L = [] -> exists m, beach A s2 [m] /\ site A s2 m = Some p) /\
    (L <> [] -> exists L1 old L2 new j pj pp,
       L = L1 ++ old :: L2 /\ beach A s2 (L1 ++ new ++ L2) /\ site A s old = Some j /\ xys !! j = Some pj /\ xys !! p = Some pp /\
       arcs_on A s2 new = (if deqb A (snd pp) (snd pj) && dltb A (fst pj) (fst pp) then [j; p] else [j; p; j]) /\
       (deqb A (snd pp) (snd pj) && dltb A (fst pj) (fst pp) = true -> L2 = []) /\
       alternating A s2 (L1 ++ new ++ L2) /\
       (forall m, m ∈ L1 ++ L2 -> site A s2 m = site A s m /\ label A s2 m = label A s m) /\
       (forall k e, pending A s2 k e -> c_node e <> old) /\
       (forall k e, pending A s k e -> c_node e <> old -> pending A s2 k e) /\
       (forall k e, k < length (s_cevs s) -> pending A s2 k e -> pending A s k e)).
Proof. intros (TO & MO & CC). exact (site_event_effect A xys corners TO MO CC s index hist s1 i s2 index' p). Qed.
Print Assumptions C11_site_event.
Example C11_case : exists s index hist s1 i p s2 index', runs DecArith pts3 box s index hist /\ hist <> [] /\
  queue_get DecArith s = Val (s1, Some i) /\ i_ev i = ESite p /\ step DecArith i index s1 = Val (s2, index').
Proof. exact (site_next_step DecArith pts3 box 1 site3). Qed.

(* ---------- C12 ---------- *)
Theorem C12_circle_event (A : Arith) (xys corners : list (pt A)) s index hist s1 i k e s2 index' : lawful A xys ->
  runs A xys corners s index hist -> queue_get A s = Val (s1, Some i) -> i_ev i = ECircle k ->
  s_cevs s !! k = Some e -> c_valid e = true -> step A i index s1 = Val (s2, index') ->
  exists L1 l b1 b2 m L2 u a b c,
    beach A s (L1 ++ l :: b1 :: c_node e :: b2 :: m :: L2) /\ beach A s2 (L1 ++ l :: u :: m :: L2) /\ (u = b1 \/ u = b2) /\
    site A s l = Some a /\ site A s (c_node e) = Some b /\ site A s m = Some c /\ c_triple e = (a, b, c) /\ NoDup [a; b; c] /\
    label A s b1 = Some (a, b) /\ label A s b2 = Some (b, c) /\ label A s2 u = Some (a, c) /\
    (forall x, x ∈ L1 ++ l :: m :: L2 -> site A s2 x = site A s x) /\
    (forall x, x ∈ L1 ++ L2 -> label A s2 x = label A s x) /\
    (forall k' e', pending A s2 k' e' -> k' < length (s_cevs s) -> pending A s k' e' /\ c_node e' <> l /\ c_node e' <> m) /\
    (forall k' e', pending A s k' e' -> k' <> k -> c_node e' <> l -> c_node e' <> m -> pending A s2 k' e') /\
    (exists conn, s_verts s2 = s_verts s ++ [mkVertex (Some (c_x e, c_y e)) conn]) /\
    s_vset s2 = s_vset s ++ [length (s_verts s)] /\
    length (s_edges s2) = S (length (s_edges s)).
Proof. intros (TO & MO & CC). exact (circle_event_effect A xys corners TO MO CC s index hist s1 i k e s2 index'). Qed.
Print Assumptions C12_circle_event.
Example C12_case : exists s index hist s1 i k e s2 index', runs DecArith pts3 box s index hist /\
  queue_get DecArith s = Val (s1, Some i) /\ i_ev i = ECircle k /\ s_cevs s !! k = Some e /\ c_valid e = true /\
  step DecArith i index s1 = Val (s2, index').
Proof. exact (circle_next_step DecArith pts3 box 3 circle3). Qed.

(* ---------- C19 ---------- *)
Theorem C19_no_false_alarm (A : Arith) (xys corners : list (pt A)) s index hist k e : lawful A xys ->
  runs A xys corners s index hist -> pending A s k e ->
  exists L l m a b c pa pb pc, beach A s L /\ consecutive L l (c_node e) m /\
    site A s l = Some a /\ site A s (c_node e) = Some b /\ site A s m = Some c /\ c_triple e = (a, b, c) /\
    xys !! a = Some pa /\ xys !! b = Some pb /\ xys !! c = Some pc /\
    create_circle A pa pb pc = Val (Some (c_x e, c_y e, c_r e)).
Proof. intros (TO & MO & CC). exact (no_false_alarm A xys corners TO MO CC s index hist k e). Qed.
Print Assumptions C19_no_false_alarm.

(* ---------- C14 ---------- *)
Theorem C14_twins (A : Arith) (xys corners : list (pt A)) s index hist e : lawful A xys ->
  runs A xys corners s index hist -> e < length (s_hedges s) ->
  exists f p q, twin A s e = Some f /\ f <> e /\ twin A s f = Some e /\ borders_site A s e = Some p /\ borders_site A s f = Some q /\ p <> q.
Proof. intros (TO & MO & CC). exact (twins A xys corners TO MO CC s index hist e). Qed.
Print Assumptions C14_twins.

(* ---------- C15 ---------- *)
Theorem C15_next_prev (A : Arith) (xys corners : list (pt A)) s index hist e f : lawful A xys ->
  runs A xys corners s index hist ->
  (next A s e = Some f <-> prev A s f = Some e) /\
  (next A s e = Some f -> borders_site A s f = borders_site A s e /\
     exists t v, twin A s e = Some t /\ starts_at A s t v /\ starts_at A s f v).
Proof. intros (TO & MO & CC). exact (nexts A xys corners TO MO CC s index hist e f). Qed.
Print Assumptions C15_next_prev.
(* a half-edge without next ends at a breakpoint: it is still being drawn, or infinite *)
Theorem C15_no_next (A : Arith) (xys corners : list (pt A)) s index hist e : lawful A xys ->
  runs A xys corners s index hist -> e < length (s_hedges s) -> next A s e = None ->
  exists t h b, twin A s e = Some t /\ half A s t = Some h /\ h_origin h = OBp b.
Proof. intros (TO & MO & CC). exact (next_none A xys corners TO MO CC s index hist e). Qed.
Print Assumptions C15_no_next.

(* ---------- C16 ---------- *)
Theorem C16_vertex_edges (A : Arith) (xys corners : list (pt A)) s index hist v : lawful A xys ->
  runs A xys corners s index hist -> v ∈ s_vset s ->
  length (connected A s v) = 3 /\ NoDup (connected A s v) /\ forall e, e ∈ connected A s v <-> starts_at A s e v.
Proof. intros (TO & MO & CC). exact (vertex_edges A xys corners TO MO CC s index hist v). Qed.
Print Assumptions C16_vertex_edges.
Theorem C16_vertex_known (A : Arith) (xys corners : list (pt A)) s index hist e v : lawful A xys ->
  runs A xys corners s index hist -> starts_at A s e v -> v ∈ s_vset s.
Proof. intros (TO & MO & CC). exact (vertex_known A xys corners TO MO CC s index hist e v). Qed.
Print Assumptions C16_vertex_known.

(* ---------- C17 ---------- *)
Theorem C17_edge_count (A : Arith) (xys corners : list (pt A)) s index hist : lawful A xys ->
  swept A xys corners s index hist -> 1 <= length xys ->
  length (s_edges s) + 1 = length xys + length (s_vset s) /\ length (s_vset s) = handled_circles A hist /\ NoDup (s_edges s) /\
  length (s_hedges s) = 2 * length (s_edges s) /\
  (forall e f, twin A s e = Some f -> (e ∈ s_edges s <-> f ∉ s_edges s)).
Proof. intros (TO & MO & CC). exact (edge_count A xys corners TO MO CC s index hist). Qed.
Print Assumptions C17_edge_count.

(* ---------- C39 ---------- *)
Theorem C39_first_edge (A : Arith) (xys corners : list (pt A)) s index hist : lawful A xys ->
  swept A xys corners s index hist -> 2 <= length xys ->
  forall p, p < length xys -> exists x e, s_points s !! p = Some x /\ p_first x = Some e /\ borders_site A s e = Some p.
Proof. intros (TO & MO & CC). exact (first_edges_set A xys corners TO MO CC s index hist). Qed.
Print Assumptions C39_first_edge.

(* ---------- C33 ---------- *)
(* up to SWEEP_FINISHED: one STEP_FINISHED per handled event, with its yd as sweep_line *)
Theorem C33_sweep_messages (A : Arith) (xys corners : list (pt A)) fuel s' : lawful A xys ->
  sweep A fuel xys (init_state A corners) = Val (s', tt) ->
  exists s index hist log, swept A xys corners s index hist /\ s_log s' = log ++ [(SAlgorithm, SWEEP_FINISHED, s_sweep s)] /\
    seen A STEP_FINISHED log = map (fun i => Some (i_y i)) hist /\ seen A SWEEP_FINISHED log = [] /\ seen A VORONOI_FINISHED log = [].
Proof. intros (TO & MO & CC). exact (sweep_messages A xys corners TO MO CC fuel s'). Qed.
Print Assumptions C33_sweep_messages.

(* PropTree.v -- properties of the event queue and of the status tree: C01, C02, C07-C10. *)
From stdpp Require Import base list sets.
From Coq Require Import ZArith.
From Verif Require Import Arith Geom Monad Tree Heapq State DecArith DecLaws HeapqProofs EventOrder TreeProofs TreeSearch TreeFacts QueueFacts.

(* ---------- C01 ---------- *)
(* e is handled before f: larger y first, then smaller x, then circle before site *)
Definition comes_before (A : Arith) (e f : qitem A) : Prop :=
  dltb A (i_y f) (i_y e) = true \/
  (deqb A (i_y e) (i_y f) = true /\ (dltb A (i_x e) (i_x f) = true \/
     (deqb A (i_x e) (i_x f) = true /\ is_circle (i_ev e) = true /\ is_circle (i_ev f) = false))).

Theorem C01_event_order (A : Arith) : TotalOrder A ->
  (forall e f, event_lt A e f = true <-> comes_before A e f) /\
  (forall e, ~ comes_before A e e) /\
  (forall e f g, comes_before A e f -> comes_before A f g -> comes_before A e g) /\
  (forall e f g, comes_before A e g -> comes_before A e f \/ comes_before A f g).
Proof. exact (event_order A). Qed.
Print Assumptions C01_event_order.
Example C01_case : TotalOrder DecArith /\
  comes_before DecArith (mkItem (A:=DecArith) (ECircle 0) (mkdec 1 0) (mkdec 2 0)) (mkItem (A:=DecArith) (ESite 0) (mkdec 1 0) (mkdec 2 0)).
Proof. split; [exact DecArith_order|]. right. split; [reflexivity|]. right. repeat split; reflexivity. Qed.

(* ---------- C02 ---------- *)
(* [history q m]: q is the PriorityQueue's internal list after some history of put and get,
   m the entries put and not yet returned *)
Inductive history {T} (lt : T -> T -> bool) : list T -> list T -> Prop :=
| h_new : history lt [] []
| h_put q m e : history lt q m -> history lt (heappush lt q e) (e :: m)
| h_get q m e q' m' : history lt q m -> heappop lt q = Some (e, q') -> m ≡ₚ e :: m' -> history lt q' m'.

Theorem C02_queue_minimal (A : Arith) (q m : list (qitem A)) : TotalOrder A -> history (event_lt A) q m ->
  (heappop (event_lt A) q = None <-> m = []) /\
  (forall e q', heappop (event_lt A) q = Some (e, q') ->
     (forall f, f ∈ m -> event_lt A f e = false) /\ exists m', m ≡ₚ e :: m' /\ q' ≡ₚ m').
Proof.
  intros TO HH. apply (queue_minimal A TO). induction HH as [|q m e _ IH|q m e q' m' _ IH Hp Hm].
  - apply queue_new.
  - by apply queue_put.
  - by eapply queue_got.
Qed.
Print Assumptions C02_queue_minimal.
Example C02_case : exists q, history (event_lt DecArith) q
    [mkItem (A:=DecArith) (ESite 0) (mkdec 1 0) (mkdec 2 0); mkItem (A:=DecArith) (ESite 1) (mkdec 5 0) (mkdec 2 0)] /\
  exists e q', heappop (event_lt DecArith) q = Some (e, q').
Proof.
  eexists. split; [apply h_put, h_put, h_new|].
  destruct (heappop _ _) as [[e q']|] eqn:E; [eauto|]. by apply heappop_None in E.
Qed.

(* ---------- the status tree ---------- *)
(* [stored h root t]: the node objects in h reachable from root form the binary tree t:
   left and right links as in t, parent links their inverse, no node twice *)
Definition stored {X} (h : list (node X)) (root : option nat) (t : tree) : Prop :=
  rep h None t /\ root = rootid t /\ NoDup (inord t).
(* the attribute data of every node *)
Definition contents {X} (h : list (node X)) : list X := map n_data h.

(* a root with two leaf children, stale heights, data = 10 * name *)
Definition h3 : list (node nat) := [mkNode 0 None None (Some 7) (Some 1); mkNode 10 (Some 0) (Some 2) None None; mkNode 20 None None (Some 1) (Some 1)].
Definition t3 : tree := T (leaf 0) 1 (leaf 2).
Lemma h3_stored : stored h3 (Some 1) t3.
Proof.
  split; [|split; [done|]].
  - simpl. repeat split; eexists; repeat split; reflexivity.
  - vm_compute. repeat constructor; set_solver.
Qed.

(* ---------- C07 ---------- *)
Theorem C07_rotations {X} (h : list (node X)) root t z x : stored h root t -> z ∈ inord t -> h !! z = Some x ->
  (forall y, n_right x = Some y -> exists h' root' t', rotate_left z h = Val (h', y) /\
     stored h' root' t' /\ inord t' = inord t /\ contents h' = contents h) /\
  (forall y, n_left x = Some y -> exists h' root' t', rotate_right z h = Val (h', y) /\
     stored h' root' t' /\ inord t' = inord t /\ contents h' = contents h).
Proof. intros (R & _ & N). exact (rotations_stored h t z x R N). Qed.
Print Assumptions C07_rotations.
Example C07_case : stored h3 (Some 1) t3 /\ 1 ∈ inord t3 /\ exists x y, h3 !! 1 = Some x /\ n_right x = Some y.
Proof. split; [exact h3_stored|]. split; [vm_compute; set_solver|]. eexists _, _. split; reflexivity. Qed.

Theorem C07_balance {X} (h : list (node X)) root t z : stored h root t -> z ∈ inord t ->
  (exists h' m root' t', balance z h = Val (h', m) /\ stored h' root' t' /\ inord t' = inord t /\ contents h' = contents h) /\
  (exists h' m t', balance_and_propagate z h = Val (h', m) /\ stored h' (Some m) t' /\ inord t' = inord t /\ contents h' = contents h).
Proof. intros (R & _ & N). exact (balance_stored h t z R N). Qed.
Print Assumptions C07_balance.

(* ---------- C08 ---------- *)
Theorem C08_neighbours {X} (h : list (node X)) root t K1 n K2 : stored h root t -> full t -> leaves t = K1 ++ n :: K2 ->
  successor n h = Val (h, head K2) /\ predecessor n h = Val (h, last K1).
Proof. intros (R & _ & N). exact (neighbours h t K1 n K2 R N). Qed.
Print Assumptions C08_neighbours.
Example C08_case : stored h3 (Some 1) t3 /\ full t3 /\ leaves t3 = [0] ++ 2 :: [].
Proof. split; [exact h3_stored|]. split; [right; split; left; done|done]. Qed.

(* ---------- C09 ---------- *)
Theorem C09_some_leaf {X} (A : Arith) (key : node X -> result (D A)) (h : list (node X)) root t k : stored h root t -> full t ->
  (forall n x, n ∈ inord t -> h !! n = Some x -> exists kx, key x = Val kx) ->
  exists m, find_leaf_node key (dltb A) (deqb A) root k h = Val (h, Some m) /\ m ∈ leaves t.
Proof. intros (R & -> & N) F. exact (some_leaf A key h t k R F N). Qed.
Print Assumptions C09_some_leaf.

(* breakpoint keys that increase from left to right bracket the key at the arc found *)
Theorem C09_bracketed {X} (A : Arith) (key : node X -> result (D A)) (h : list (node X)) root t k : TotalOrder A ->
  stored h root t -> full t ->
  (forall n x, n ∈ inord t -> h !! n = Some x -> exists kx, key x = Val kx) ->
  (forall i j a b xa xb ka kb, i < j -> internals t !! i = Some a -> internals t !! j = Some b ->
     h !! a = Some xa -> h !! b = Some xb -> key xa = Val ka -> key xb = Val kb -> dltb A kb ka = false) ->
  exists m L1 L2, find_leaf_node key (dltb A) (deqb A) root k h = Val (h, Some m) /\ m ∈ leaves t /\ inord t = L1 ++ m :: L2 /\
    (forall n x kn, n ∈ L1 -> n ∈ internals t -> h !! n = Some x -> key x = Val kn -> dltb A k kn = false) /\
    (forall n x kn, n ∈ L2 -> n ∈ internals t -> h !! n = Some x -> key x = Val kn -> dltb A kn k = false).
Proof. intros TO (R & -> & N) F. exact (bracketed A TO key h t k R F N). Qed.
Print Assumptions C09_bracketed.
Example C09_case : TotalOrder DecArith /\ stored h3 (Some 1) t3 /\ full t3 /\ internals t3 = [1].
Proof. split; [exact DecArith_order|]. split; [exact h3_stored|]. split; [right; split; left; done|done]. Qed.

(* ---------- C10 ---------- *)
(* No assumption on the comparisons of keys: they may be rounded or inconsistent.  The one
   hypothesis: a node that matches has a key equal to the query's. *)
Theorem C10_find_value {X K} (key : node X -> result K) (lt eq : K -> K -> bool) (h : list (node X)) root t k (matches : X -> bool) :
  stored h root t ->
  (forall n x, n ∈ inord t -> h !! n = Some x -> exists kx, key x = Val kx) ->
  (forall n x kx, n ∈ inord t -> h !! n = Some x -> matches (n_data x) = true -> key x = Val kx -> eq k kx = true) ->
  exists o, find_value key lt eq root (Val k) matches h = Val (h, o) /\
    match o with
    | Some m => m ∈ inord t /\ exists x, h !! m = Some x /\ matches (n_data x) = true
    | None => forall n x, n ∈ inord t -> h !! n = Some x -> matches (n_data x) = false
    end.
Proof. intros (R & -> & N). exact (value_found key lt eq h t k matches R N). Qed.
Print Assumptions C10_find_value.
Example C10_case : stored h3 (Some 1) t3 /\
  (forall n x kx, n ∈ inord t3 -> h3 !! n = Some x -> Nat.eqb (n_data x) 20 = true -> Val (n_data x) = Val kx -> Nat.eqb 20 kx = true).
Proof. split; [exact h3_stored|]. intros n x kx _ _ H [= <-]. by apply Nat.eqb_eq in H as ->. Qed.

(* without that hypothesis a matching node can be missed: it is not compared itself when the
   search turns left or right at it *)
Theorem C10_find_value_refuted : exists (h : list (node nat)) root t m x (matches : nat -> bool), stored h root t /\
  m ∈ inord t /\ h !! m = Some x /\ matches (n_data x) = true /\
  find_value (fun x => Val (n_data x)) Nat.ltb Nat.eqb root (Val 11) matches h = Val (h, None).
Proof.
  exists h3, (Some 1), t3, 1, (mkNode 10 (Some 0) (Some 2) None None), (Nat.eqb 10).
  split; [exact h3_stored|]. split; [vm_compute; set_solver|]. repeat split; reflexivity.
Qed.
Print Assumptions C10_find_value_refuted.

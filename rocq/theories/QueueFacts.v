(* QueueFacts.v -- the event queue and the tree operations, in the form used by PropTree.v. *)
From stdpp Require Import base list sets.
From Coq Require Import ZArith Lia.
From Verif Require Import Arith Geom Monad Tree Heapq State HeapqProofs EventOrder TreeProofs TreeSearch TreeFacts.

Section Queue.
Context (A : Arith) (TO : TotalOrder A).
Notation comes_before e f := (dltb A (i_y f) (i_y e) = true \/
  (deqb A (i_y e) (i_y f) = true /\ (dltb A (i_x e) (i_x f) = true \/
     (deqb A (i_x e) (i_x f) = true /\ is_circle (i_ev e) = true /\ is_circle (i_ev f) = false)))).
Lemma event_order :
  (forall e f, event_lt A e f = true <-> comes_before e f) /\
  (forall e, ~ comes_before e e) /\
  (forall e f g, comes_before e f -> comes_before f g -> comes_before e g) /\
  (forall e f g, comes_before e g -> comes_before e f \/ comes_before f g).
Proof.
  pose proof (event_swo A TO) as [S1 S2 S3]. split; [intros e f; by apply event_lt_spec|].
  split; [intros e He; apply event_lt_spec in He; [by rewrite S1 in He|done]|].
  split; intros e f g; rewrite <- !event_lt_spec by done; [apply S2|apply S3].
Qed.

Definition queue_ok (q m : list (qitem A)) : Prop := is_heap (event_lt A) q /\ q ≡ₚ m.
Lemma queue_new : queue_ok [] [].
Proof. split; [|done]. intros i p c _ Hp. by rewrite lookup_nil in Hp. Qed.
Lemma queue_put q m e : queue_ok q m -> queue_ok (heappush (event_lt A) q e) (e :: m).
Proof.
  intros [H1 H2]. split; [apply heappush_heap; [by apply event_swo|done]|].
  rewrite heappush_perm by (by apply event_swo). by rewrite H2.
Qed.
Lemma queue_got q m e q' m' : queue_ok q m -> heappop (event_lt A) q = Some (e, q') -> m ≡ₚ e :: m' -> queue_ok q' m'.
Proof.
  intros [H1 H2] Hp Hm. destruct (heappop_spec _ (event_swo A TO) _ _ _ H1 Hp) as (P1 & P2 & _). split; [done|].
  rewrite H2, Hm in P1. by apply Permutation.Permutation_cons_inv in P1.
Qed.
Lemma queue_minimal q m : queue_ok q m ->
  (heappop (event_lt A) q = None <-> m = []) /\
  (forall e q', heappop (event_lt A) q = Some (e, q') ->
     (forall f, f ∈ m -> event_lt A f e = false) /\ exists m', m ≡ₚ e :: m' /\ q' ≡ₚ m').
Proof.
  intros [H1 H2]. split.
  - rewrite heappop_None. split; intros ->; [by apply Permutation_nil|]. by apply Permutation_nil.
  - intros e q' Hp. destruct (heappop_spec _ (event_swo A TO) _ _ _ H1 Hp) as (P1 & P2 & P3). split.
    + intros f Hf. apply P3. by rewrite H2.
    + exists q'. split; [|done]. by rewrite <- H2, P1.
Qed.
End Queue.

Section Stored.
Context {X : Type}.
Notation heap := (list (node X)).
Notation stored h root t := (rep h None t /\ root = rootid t /\ NoDup (inord t)).
Lemma rotations_stored (h : heap) t z x : rep h None t -> NoDup (inord t) -> z ∈ inord t -> h !! z = Some x ->
  (forall y, n_right x = Some y -> exists h' root' t', rotate_left z h = Val (h', y) /\ stored h' root' t' /\ inord t' = inord t /\ map n_data h' = map n_data h) /\
  (forall y, n_left x = Some y -> exists h' root' t', rotate_right z h = Val (h', y) /\ stored h' root' t' /\ inord t' = inord t /\ map n_data h' = map n_data h).
Proof.
  intros R N Hz Hx. destruct (rotations_preserve h t z x R N Hz Hx) as [H1 H2]. split; intros y Hy.
  - destruct (H1 y Hy) as (h' & t' & E1 & E2 & E3 & E4). exists h', (rootid t'), t'. rewrite E3. auto 10.
  - destruct (H2 y Hy) as (h' & t' & E1 & E2 & E3 & E4). exists h', (rootid t'), t'. rewrite E3. auto 10.
Qed.
Lemma balance_stored (h : heap) t z : rep h None t -> NoDup (inord t) -> z ∈ inord t ->
  (exists h' m root' t', balance z h = Val (h', m) /\ stored h' root' t' /\ inord t' = inord t /\ map n_data h' = map n_data h) /\
  (exists h' m t', balance_and_propagate z h = Val (h', m) /\ stored h' (Some m) t' /\ inord t' = inord t /\ map n_data h' = map n_data h).
Proof.
  intros R N Hz. destruct (balance_preserves h t z R N Hz) as [(h' & m & t' & E1 & E2 & E3 & E4) (h2 & m2 & t2 & F1 & F2 & F3 & F4 & F5)]. split.
  - exists h', m, (rootid t'), t'. rewrite E3. auto 10.
  - exists h2, m2, t2. rewrite F4. auto 10.
Qed.
Lemma some_leaf (A : Arith) (key : node X -> result (D A)) (h : heap) t k : rep h None t -> full t -> NoDup (inord t) ->
  (forall n x, n ∈ inord t -> h !! n = Some x -> exists kx, key x = Val kx) ->
  exists m, find_leaf_node key (dltb A) (deqb A) (rootid t) k h = Val (h, Some m) /\ m ∈ leaves t.
Proof.
  intros R F N HK. pose proof (find_leaf_node_spec key (dltb A) (deqb A) (fun _ => False) h None t k R F N) as HS.
  feed specialize HS.
  { intros n x e Hn Hx He. destruct (HK n x Hn Hx). congruence. }
  destruct (find_leaf_node key (dltb A) (deqb A) (rootid t) k h) as [[h' o]|]; [|done]. destruct HS as [-> (m & -> & Hfd)].
  exists m. split; [done|]. by eapply found_leaf.
Qed.
Lemma rep_in (h : heap) p t n : rep h p t -> n ∈ inord t -> exists x, h !! n = Some x.
Proof.
  revert p. induction t as [|l IHl m r IHr]; intros p; simpl; [set_solver|].
  intros ((x & Hx & _) & R1 & R2). rewrite elem_of_app, elem_of_cons. intros [H|[->|H]]; eauto.
Qed.
Lemma bracketed (A : Arith) (TO : TotalOrder A) (key : node X -> result (D A)) (h : heap) t k : rep h None t -> full t -> NoDup (inord t) ->
  (forall n x, n ∈ inord t -> h !! n = Some x -> exists kx, key x = Val kx) ->
  (forall i j a b xa xb ka kb, i < j -> internals t !! i = Some a -> internals t !! j = Some b ->
     h !! a = Some xa -> h !! b = Some xb -> key xa = Val ka -> key xb = Val kb -> dltb A kb ka = false) ->
  exists m L1 L2, find_leaf_node key (dltb A) (deqb A) (rootid t) k h = Val (h, Some m) /\ m ∈ leaves t /\ inord t = L1 ++ m :: L2 /\
    (forall n x kn, n ∈ L1 -> n ∈ internals t -> h !! n = Some x -> key x = Val kn -> dltb A k kn = false) /\
    (forall n x kn, n ∈ L2 -> n ∈ internals t -> h !! n = Some x -> key x = Val kn -> dltb A kn k = false).
Proof.
  intros R F N HK HS. destruct (find_leaf_brackets A TO key h t k R F N) as (m & L1 & L2 & H1 & H2 & H3 & H4 & H5).
  - intros n Hn. destruct (rep_in h None t n R Hn) as [x Hx]. destruct (HK n x Hn Hx) as [kx Hkx]. exists kx, x. done.
  - intros L1 a L2 b L3 ka kb HE (xa & Ha & Hka) (xb & Hb & Hkb).
    refine (HS (length L1) (length L1 + 1 + length L2) a b xa xb ka kb _ _ _ Ha Hb Hka Hkb); [lia| |].
    + rewrite HE. by rewrite lookup_app_r, Nat.sub_diag by lia.
    + rewrite HE. rewrite lookup_app_r by lia. replace (length L1 + 1 + length L2 - length L1) with (S (length L2)) by lia. simpl.
      by rewrite lookup_app_r, Nat.sub_diag by lia.
  - exists m, L1, L2. do 3 (split; [done|]). split.
    + intros n x kn Hn Hi Hx Hk. apply (H4 n kn Hn Hi). exists x. done.
    + intros n x kn Hn Hi Hx Hk. apply (H5 n kn Hn Hi). exists x. done.
Qed.
Lemma value_found {K} (key : node X -> result K) (lt eq : K -> K -> bool) (h : heap) t k (matches : X -> bool) :
  rep h None t -> NoDup (inord t) ->
  (forall n x, n ∈ inord t -> h !! n = Some x -> exists kx, key x = Val kx) ->
  (forall n x kx, n ∈ inord t -> h !! n = Some x -> matches (n_data x) = true -> key x = Val kx -> eq k kx = true) ->
  exists o, find_value key lt eq (rootid t) (Val k) matches h = Val (h, o) /\
    match o with
    | Some m => m ∈ inord t /\ exists x, h !! m = Some x /\ matches (n_data x) = true
    | None => forall n x, n ∈ inord t -> h !! n = Some x -> matches (n_data x) = false
    end.
Proof.
  intros R N HK HM. pose proof (find_value_spec key lt eq (fun _ => False) h None t (Val k) matches R N) as HS.
  feed specialize HS; [done| | |].
  - intros n x e Hn Hx He. destruct (HK n x Hn Hx). congruence.
  - intros n x k' kx Hn Hx Hc [= <-] Hk. eauto.
  - destruct (find_value key lt eq (rootid t) (Val k) matches h) as [[h' o]|]; [|done]. destruct HS as [-> HS].
    exists o. split; [done|]. destruct o; exact HS.
Qed.
End Stored.

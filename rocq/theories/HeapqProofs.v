(* HeapqProofs.v -- the heap operations keep the multiset of entries and pop a
   minimal one, for any comparison that is a strict weak order. *)
From stdpp Require Import base list sorting.
From Coq Require Import Lia.
From Verif Require Import Heapq.

Record StrictWeakOrder {T : Type} (lt : T -> T -> bool) : Prop := {
  swo_irrefl : forall a, lt a a = false;
  swo_trans : forall a b c, lt a b = true -> lt b c = true -> lt a c = true;
  swo_cotrans : forall a b c, lt a b = true -> lt a c = true \/ lt c b = true
}.

Local Arguments Nat.div : simpl never.
Local Arguments Nat.mul : simpl never.
Section P.
Context {T : Type} (lt : T -> T -> bool) (SWO : StrictWeakOrder lt).

Definition le (a b : T) : Prop := lt b a = false.

Lemma le_refl a : le a a. Proof. apply (swo_irrefl _ SWO). Qed.
Lemma le_trans a b c : le a b -> le b c -> le a c.
Proof.
  unfold le; intros H1 H2. destruct (lt c a) eqn:E; auto.
  destruct (swo_cotrans _ SWO _ _ b E); congruence.
Qed.
Lemma lt_le a b : lt a b = true -> le a b.
Proof.
  unfold le; intros H. destruct (lt b a) eqn:E; auto.
  pose proof (swo_trans _ SWO _ _ _ H E). rewrite (swo_irrefl _ SWO) in H0. congruence.
Qed.

Definition parent (i : nat) : nat := (i - 1) / 2.
Definition ok (h : list T) (i : nat) : Prop :=
  forall p c, 0 < i -> h !! parent i = Some p -> h !! i = Some c -> le p c.
Definition is_heap (h : list T) : Prop := forall i, ok h i.

Lemma parent_lt i : 0 < i -> parent i < i.
Proof. intros. unfold parent. pose proof (Nat.div_lt_upper_bound (i-1) 2 i). lia. Qed.
Lemma parent_child i p : parent i = p -> 0 < i -> i = 2 * p + 1 \/ i = 2 * p + 2.
Proof.
  unfold parent. intros <- ?. pose proof (Nat.div_mod_eq (i - 1) 2). 
  pose proof (Nat.mod_upper_bound (i - 1) 2). lia.
Qed.
Lemma parent_l p : parent (2 * p + 1) = p.
Proof. unfold parent. replace (2 * p + 1 - 1) with (p * 2) by lia. apply Nat.div_mul. lia. Qed.
Lemma parent_r p : parent (2 * p + 2) = p.
Proof. unfold parent. replace (2 * p + 2 - 1) with (1 + p * 2) by lia. rewrite Nat.div_add by lia. reflexivity. Qed.

(* permutation *)
Lemma delete_insert_same (h : list T) i x : delete i (<[i := x]> h) = delete i h.
Proof. revert i; induction h; intros [|i]; simpl; auto. f_equal; auto. Qed.
Lemma insert_perm (h : list T) i x : i < length h -> <[i := x]> h ≡ₚ x :: delete i h.
Proof.
  intros. rewrite <- (delete_insert_same h i x). apply delete_Permutation.
  by apply list_lookup_insert.
Qed.
Lemma swap_perm (h : list T) i j x c :
  i <> j -> i < length h -> h !! j = Some c ->
  <[j := x]> (<[i := c]> h) ≡ₚ <[i := x]> h.
Proof.
  intros Hij Hi Hj. pose proof (lookup_lt_Some _ _ _ Hj).
  rewrite insert_perm by (rewrite insert_length; lia).
  rewrite (insert_perm h i x) by lia. constructor.
  apply (Permutation_cons_inv (a := c)).
  rewrite <- (insert_perm h i c) by lia. symmetry. apply delete_Permutation.
  rewrite list_lookup_insert_ne by lia. done.
Qed.

Lemma siftdown_length fuel h st pos x : length (siftdown lt fuel h st pos x) = length h.
Proof.
  revert h pos; induction fuel; intros; simpl; [by rewrite insert_length|].
  destruct (st <? pos); [|by rewrite insert_length].
  destruct (h !! _); [|by rewrite insert_length]. destruct (lt _ _); [|by rewrite insert_length].
  rewrite IHfuel, insert_length. done.
Qed.
Lemma siftdown_perm fuel h st pos x : pos < length h ->
  siftdown lt fuel h st pos x ≡ₚ <[pos := x]> h.
Proof.
  revert h pos; induction fuel; intros h pos Hp; simpl; auto.
  destruct (Nat.ltb_spec st pos); auto.
  destruct (h !! _) eqn:E; auto. destruct (lt _ _); auto.
  assert (parent pos < pos) by (apply parent_lt; lia). unfold parent in *.
  rewrite IHfuel by (rewrite insert_length; lia).
  apply swap_perm; auto. lia.
Qed.

Lemma siftdown_heap fuel h pos x :
  pos < fuel -> pos < length h ->
  (forall i, i <> pos -> ok (<[pos := x]> h) i) ->
  (forall i p c, 0 < pos -> 0 < i -> parent i = pos -> h !! parent pos = Some p -> h !! i = Some c -> le p c) ->
  is_heap (siftdown lt fuel h 0 pos x).
Proof.
  revert h pos. induction fuel; intros h pos Hf Hp Hok Hg; [lia|]. simpl.
  destruct (Nat.ltb_spec 0 pos); simpl.
  2:{ intros i. destruct (decide (i = pos)); auto. subst. intros p c ?. lia. }
  pose proof (parent_lt pos H) as Hpl. fold (parent pos).
  destruct (h !! parent pos) as [p|] eqn:Ep.
  2:{ apply lookup_ge_None in Ep. lia. }
  destruct (lt x p) eqn:Elt.
  - apply IHfuel; [lia|rewrite insert_length; lia| |].
    + intros i Hi p0 c0 H0 Hp0 Hc0.
      assert (Hlen : length (<[pos:=p]> h) = length h) by apply insert_length.
      destruct (decide (i = pos)) as [->|Hne].
      { rewrite list_lookup_insert in Hp0 by lia. injection Hp0 as <-.
        rewrite list_lookup_insert_ne, list_lookup_insert in Hc0 by lia. injection Hc0 as <-.
        apply lt_le; auto. }
      rewrite !list_lookup_insert_ne in Hc0 by lia.
      destruct (decide (parent i = parent pos)) as [Heq|Hpne].
      { rewrite Heq, list_lookup_insert in Hp0 by lia. injection Hp0 as <-.
        apply le_trans with p; [apply lt_le; auto|].
        apply (Hok i Hne p c0); auto.
        - rewrite Heq, list_lookup_insert_ne by lia. done.
        - rewrite list_lookup_insert_ne by lia. done. }
      rewrite list_lookup_insert_ne in Hp0 by lia.
      destruct (decide (parent i = pos)) as [Heq2|Hpne2].
      { rewrite Heq2, list_lookup_insert in Hp0 by lia. injection Hp0 as <-.
        apply (Hg i p c0); auto. }
      rewrite list_lookup_insert_ne in Hp0 by lia.
      apply (Hok i Hne p0 c0); auto; rewrite list_lookup_insert_ne by lia; done.
    + intros i p0 c0 Hpp Hi Hpar Hp0 Hc0.
      pose proof (parent_lt (parent pos) Hpp).
      rewrite list_lookup_insert_ne in Hp0 by lia.
      assert (Hpp0 : le p0 p).
      { apply (Hok (parent pos) ltac:(lia) p0 p); auto; rewrite list_lookup_insert_ne by lia; done. }
      destruct (decide (i = pos)) as [->|Hne].
      { rewrite list_lookup_insert in Hc0 by lia. injection Hc0 as <-. done. }
      rewrite list_lookup_insert_ne in Hc0 by lia.
      apply le_trans with p; auto.
      apply (Hok i Hne p c0); auto.
      * rewrite Hpar, list_lookup_insert_ne by lia. done.
      * rewrite list_lookup_insert_ne by lia. done.
  - intros i. destruct (decide (i = pos)) as [->|]; auto.
    intros p0 c0 H0 Hp0 Hc0. rewrite list_lookup_insert_ne in Hp0 by lia.
    rewrite list_lookup_insert in Hc0 by lia. injection Hc0 as <-. rewrite Ep in Hp0.
    injection Hp0 as <-. exact Elt.
Qed.

Lemma heappush_perm h x : heappush lt h x ≡ₚ x :: h.
Proof.
  unfold heappush. rewrite siftdown_perm by (rewrite app_length; simpl; lia).
  replace (length h) with (length h + 0) by lia. rewrite insert_app_r. simpl.
  rewrite Permutation_app_comm. done.
Qed.

Lemma heappush_heap h x : is_heap h -> is_heap (heappush lt h x).
Proof.
  intros Hh. unfold heappush.
  apply siftdown_heap; [lia|rewrite app_length; simpl; lia| |].
  - replace (<[length h := x]> (h ++ [x])) with (h ++ [x]).
    2:{ rewrite list_insert_id; auto. rewrite lookup_app_r, Nat.sub_diag by lia. done. }
    intros i Hi p c H0 Hp Hc. pose proof (parent_lt i H0).
    pose proof (lookup_lt_Some _ _ _ Hc) as L. rewrite app_length in L; simpl in L.
    rewrite lookup_app_l in Hp, Hc by lia. apply (Hh i p c); auto.
  - intros i p c H0 Hi Hpar Hp Hc. 
    pose proof (lookup_lt_Some _ _ _ Hc) as L. rewrite app_length in L; simpl in L.
    pose proof (parent_lt i Hi). lia.
Qed.

Lemma siftup_spec fuel h pos :
  pos < length h -> length h <= fuel + pos ->
  (forall i, i <> pos -> parent i <> pos -> ok h i) ->
  (forall i p c, 0 < pos -> 0 < i -> parent i = pos -> h !! parent pos = Some p -> h !! i = Some c -> le p c) ->
  let '(h', pos') := siftup lt fuel h pos in
  length h' = length h /\ pos' < length h /\ length h <= 2 * pos' + 1 /\
  (forall i, i <> pos' -> ok h' i) /\
  (forall x, <[pos' := x]> h' ≡ₚ <[pos := x]> h).
Proof.
  revert h pos. induction fuel; intros h pos Hp Hf Hok Hg; [lia|].
  cbn [siftup].
  destruct (h !! (2 * pos + 1)) as [c|] eqn:Ec.
  2:{ apply lookup_ge_None in Ec. split_and!; auto.
      intros i Hi. destruct (decide (parent i = pos)) as [Hpar|]; auto.
      intros p c0 H0 _ Hc0. apply lookup_lt_Some in Hc0. pose proof (parent_child _ _ Hpar H0). lia. }
  pose proof (lookup_lt_Some _ _ _ Ec) as Lc.
  (* common step: the child at ch with value v, not above its sibling, moves up *)
  assert (Step : forall ch v, (ch = 2 * pos + 1 \/ ch = 2 * pos + 2) -> h !! ch = Some v ->
     (forall i w, i = 2 * pos + 1 \/ i = 2 * pos + 2 -> h !! i = Some w -> le v w) ->
     let '(h', pos') := siftup lt fuel (<[pos := v]> h) ch in
     length h' = length h /\ pos' < length h /\ length h <= 2 * pos' + 1 /\
     (forall i, i <> pos' -> ok h' i) /\ (forall x, <[pos' := x]> h' ≡ₚ <[pos := x]> h)).
  { intros ch v Hch Hv Hmin. pose proof (lookup_lt_Some _ _ _ Hv) as Lv.
    assert (Pch : parent ch = pos) by (destruct Hch as [-> | ->]; [apply parent_l|apply parent_r]).
    specialize (IHfuel (<[pos := v]> h) ch).
    destruct (siftup lt fuel (<[pos := v]> h) ch) as [h' pos'].
    rewrite insert_length in IHfuel.
    destruct IHfuel as (L & P & Q & R & Pm); [lia|lia| | |].
    - intros i Hi Hpi p0 c0 H0 Hp0 Hc0.
      destruct (decide (i = pos)) as [->|Hne].
      { rewrite list_lookup_insert in Hc0 by lia. injection Hc0 as <-.
        pose proof (parent_lt pos H0).
        rewrite list_lookup_insert_ne in Hp0 by lia.
        apply (Hg ch p0 v); auto. lia. }
      rewrite list_lookup_insert_ne in Hc0 by lia.
      destruct (decide (parent i = pos)) as [Heq|Hpne].
      { rewrite Heq, list_lookup_insert in Hp0 by lia. injection Hp0 as <-.
        apply (Hmin i c0); auto. apply parent_child; auto. }
      rewrite list_lookup_insert_ne in Hp0 by lia. apply (Hok i Hne Hpne p0 c0); auto.
    - intros i p0 c0 H0 Hi Hpar Hp0 Hc0. rewrite Pch in Hp0.
      rewrite list_lookup_insert in Hp0 by lia. injection Hp0 as <-.
      pose proof (parent_lt i Hi).
      rewrite list_lookup_insert_ne in Hc0 by lia.
      apply (Hok i ltac:(lia) ltac:(lia) v c0); auto. rewrite Hpar. done.
    - split_and!; auto. intros x. rewrite Pm. apply swap_perm; auto. lia. }
  destruct (h !! (2 * pos + 1 + 1)) as [r|] eqn:Er.
  - replace (2 * pos + 1 + 1) with (2 * pos + 2) in * by lia. destruct (lt c r) eqn:El.
    + apply Step; auto. intros i w [-> | ->] Hw; rewrite Hw in *; simplify_eq; [apply le_refl|by apply lt_le].
    + apply Step; auto. intros i w [-> | ->] Hw; rewrite Hw in *; simplify_eq; [done|apply le_refl].
  - replace (2 * pos + 1 + 1) with (2 * pos + 2) in * by lia.
    apply Step; auto. intros i w [-> | ->] Hw; rewrite Hw in *; simplify_eq. apply le_refl.
Qed.

Lemma heap_root_min h x y : is_heap h -> h !! 0 = Some x -> y ∈ h -> le x y.
Proof.
  intros Hh H0 Hy. apply elem_of_list_lookup_1 in Hy as [i Hi].
  revert y Hi. induction i as [i IH] using lt_wf_ind. intros y Hi.
  destruct (decide (i = 0)) as [->|Hne].
  { rewrite H0 in Hi. injection Hi as <-. apply le_refl. }
  pose proof (parent_lt i ltac:(lia)) as L.
  destruct (h !! parent i) as [p|] eqn:E.
  - apply le_trans with p; [eapply IH; eauto|]. apply (Hh i p y); auto. lia.
  - apply lookup_ge_None in E. apply lookup_lt_Some in Hi. lia.
Qed.

Lemma heappop_None h : heappop lt h = None <-> h = [].
Proof.
  unfold heappop. split.
  - destruct (reverse h) eqn:E.
    + intros _. rewrite <- (reverse_involutive h), E. done.
    + destruct (reverse l) eqn:E2; [done|]. by destruct (siftup _ _ _ _).
  - intros ->. done.
Qed.

Theorem heappop_spec h x h' : is_heap h -> heappop lt h = Some (x, h') ->
  x :: h' ≡ₚ h /\ is_heap h' /\ forall y, y ∈ h -> le x y.
Proof.
  intros Hh Hpop. unfold heappop in Hpop.
  destruct (reverse h) as [|lst rest] eqn:E; [done|].
  assert (Eh : h = reverse rest ++ [lst]).
  { rewrite <- (reverse_involutive h), E, reverse_cons. done. }
  destruct (reverse rest) as [|r0 t] eqn:Er.
  { simpl in Eh. injection Hpop as <- <-. subst h. split; [done|]. split.
    - intros i p c H0 Hp Hc. done.
    - intros y Hy. apply elem_of_list_singleton in Hy as ->. apply le_refl. }
  set (q := r0 :: t) in *.
  pose proof (siftup_spec (S (length q)) (<[0 := lst]> q) 0) as SP.
  destruct (siftup lt (S (length q)) (<[0:=lst]> q) 0) as [h2 pos] eqn:Es.
  injection Hpop as <- <-.
  rewrite insert_length in SP.
  assert (Hq : is_heap q).
  { intros i p c H0 Hp Hc. pose proof (lookup_lt_Some _ _ _ Hc). pose proof (parent_lt i H0).
    apply (Hh i p c); auto; rewrite Eh, lookup_app_l; auto; lia. }
  destruct SP as (L & P & Q & R & Pm).
  { subst q; simpl; lia. } { lia. }
  { intros i Hi Hpi p c H0 Hp Hc. pose proof (parent_lt i H0).
    rewrite list_lookup_insert_ne in Hp, Hc by lia. apply (Hq i p c); auto. }
  { intros. lia. }
  assert (Hsd : siftdown lt (S pos) (<[pos:=lst]> h2) 0 pos lst ≡ₚ <[0:=lst]> q).
  { rewrite siftdown_perm by (rewrite insert_length; lia). rewrite list_insert_insert.
    rewrite Pm. rewrite list_insert_insert. done. }
  assert (Hperm : r0 :: siftdown lt (S pos) (<[pos:=lst]> h2) 0 pos lst ≡ₚ h).
  { rewrite Hsd, Eh. subst q. simpl. constructor. apply (Permutation_app_comm [lst]). }
  split; [done|]. split.
  - change (is_heap (siftdown lt (S pos) (<[pos:=lst]> h2) 0 pos lst)). apply siftdown_heap; [lia|rewrite insert_length; lia| |].
    + rewrite list_insert_insert. intros i Hi p c H0 Hp Hc.
      destruct (decide (parent i = pos)) as [Hpar|Hne].
      * exfalso. pose proof (parent_child _ _ Hpar H0). apply lookup_lt_Some in Hc.
        rewrite insert_length in Hc. lia.
      * rewrite list_lookup_insert_ne in Hp, Hc by lia. apply (R i Hi p c); auto.
    + intros i p c H0 Hi Hpar Hp Hc. exfalso. pose proof (parent_child _ _ Hpar Hi).
      apply lookup_lt_Some in Hc. rewrite insert_length in Hc. lia.
  - intros y Hy. apply (heap_root_min h r0 y Hh); auto. rewrite Eh. subst q. done.
Qed.
End P.

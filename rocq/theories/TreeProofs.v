(* TreeProofs.v -- the pointer structure of foronoi/tree represents a binary tree, and
   what the operations do to that tree. *)
From stdpp Require Import base list sets.
From Coq Require Import ZArith Lia.
From Verif Require Import Arith Monad Tree.
Local Open Scope monad_scope.

(* ---------- abstract binary trees of node identifiers ---------- *)
Inductive tree : Type := E | T (l : tree) (n : nat) (r : tree).

Fixpoint inord (t : tree) : list nat :=
  match t with E => [] | T l n r => inord l ++ n :: inord r end.
Definition rootid (t : tree) : option nat := match t with E => None | T _ n _ => Some n end.
Fixpoint depth (t : tree) : nat := match t with E => 0 | T l _ r => S (max (depth l) (depth r)) end.
(* every node has no child or two *)
Fixpoint full (t : tree) : Prop :=
  match t with
  | E => False
  | T l _ r => (l = E /\ r = E) \/ (full l /\ full r)
  end.
Fixpoint leaves (t : tree) : list nat :=
  match t with
  | E => []
  | T E n E => [n]
  | T l _ r => leaves l ++ leaves r
  end.
Definition leaf (n : nat) : tree := T E n E.

(* one-hole contexts *)
Inductive ctx : Type := Top | CL (c : ctx) (n : nat) (r : tree) | CR (l : tree) (n : nat) (c : ctx).
Fixpoint plug (c : ctx) (t : tree) : tree :=
  match c with Top => t | CL c n r => plug c (T t n r) | CR l n c => plug c (T l n t) end.
Definition ctx_parent (c : ctx) : option nat :=
  match c with Top => None | CL _ n _ => Some n | CR _ n _ => Some n end.
Fixpoint ctx_depth (c : ctx) : nat :=
  match c with Top => 0 | CL c _ _ => S (ctx_depth c) | CR _ _ c => S (ctx_depth c) end.
Fixpoint ctx_ids (c : ctx) : list nat :=
  match c with
  | Top => []
  | CL c n r => n :: inord r ++ ctx_ids c
  | CR l n c => n :: inord l ++ ctx_ids c
  end.
(* nodes before / after the hole *)
Fixpoint ctx_l (c : ctx) : list nat :=
  match c with Top => [] | CL c _ _ => ctx_l c | CR l n c => ctx_l c ++ inord l ++ [n] end.
Fixpoint ctx_r (c : ctx) : list nat :=
  match c with Top => [] | CL c n r => n :: inord r ++ ctx_r c | CR _ _ c => ctx_r c end.
Fixpoint full_ctx (c : ctx) : Prop :=
  match c with Top => True | CL c _ r => full r /\ full_ctx c | CR l _ c => full l /\ full_ctx c end.

Lemma inord_plug c t : inord (plug c t) = ctx_l c ++ inord t ++ ctx_r c.
Proof.
  revert t; induction c; intros; simpl; [by rewrite app_nil_r| |]; rewrite IHc; simpl;
  rewrite <- !app_assoc; done.
Qed.
Lemma ctx_ids_perm c : ctx_ids c ≡ₚ ctx_l c ++ ctx_r c.
Proof.
  induction c; simpl; auto; rewrite IHc; [solve_Permutation|solve_Permutation].
Qed.
Lemma plug_ids c t : inord (plug c t) ≡ₚ ctx_ids c ++ inord t.
Proof. rewrite inord_plug, ctx_ids_perm. rewrite (Permutation_app_comm (inord t)), app_assoc. done. Qed.
Lemma depth_size t : depth t <= length (inord t).
Proof. induction t; simpl; [lia|]. rewrite app_length. simpl. lia. Qed.
Lemma ctx_depth_size c : ctx_depth c <= length (ctx_ids c).
Proof. induction c; simpl; rewrite ?app_length; lia. Qed.
Lemma full_nonempty t : full t -> t <> E. Proof. destruct t; simpl; congruence. Qed.
Lemma full_plug c t : full_ctx c -> full t -> full (plug c t).
Proof. revert t; induction c; simpl; intros; auto; apply IHc; try tauto; simpl; tauto. Qed.
Lemma full_plug_inv c t : full (plug c t) -> t <> E -> full_ctx c /\ full t.
Proof.
  revert t; induction c; simpl; intros t H Ht; auto.
  - destruct (IHc _ H) as [? [[-> ->]|[? ?]]]; [done|done|auto].
  - destruct (IHc _ H) as [? [[-> ->]|[? ?]]]; [done|done|auto].
Qed.
Lemma full_leaf n : full (leaf n). Proof. simpl; auto. Qed.

(* the last leaf of a full tree ends its in-order list; the first begins it *)
Fixpoint first_leaf (t : tree) (d : nat) : nat := match t with E => d | T l n _ => first_leaf l n end.
Fixpoint last_leaf (t : tree) (d : nat) : nat := match t with E => d | T _ n r => last_leaf r n end.
Lemma inord_first t d : t <> E -> exists r, inord t = first_leaf t d :: r.
Proof.
  revert d. induction t as [|l IHl n r _]; [done|]. intros d _. simpl. destruct l as [|l1 m l2].
  - simpl. eauto.
  - destruct (IHl n) as [q Hq]; [done|]. rewrite Hq. simpl. eauto.
Qed.
Lemma inord_last t d : t <> E -> exists l, inord t = l ++ [last_leaf t d].
Proof.
  revert d. induction t as [|l _ n r IHr]; [done|]. intros d _. simpl. destruct r as [|l1 m l2].
  - simpl. eauto.
  - destruct (IHr n) as [q Hq]; [done|]. rewrite Hq. exists (inord l ++ n :: q).
    rewrite <- app_assoc. done.
Qed.

(* ---------- representation of a tree in the store ---------- *)
Section Rep.
Context {X : Type}.
Notation heap := (list (node X)).

Fixpoint rep (h : heap) (par : option nat) (t : tree) : Prop :=
  match t with
  | E => True
  | T l n r =>
      (exists x, h !! n = Some x /\ n_parent x = par /\ n_left x = rootid l /\ n_right x = rootid r) /\
      rep h (Some n) l /\ rep h (Some n) r
  end.

Fixpoint rep_ctx (h : heap) (c : ctx) (child : option nat) : Prop :=
  match c with
  | Top => True
  | CL c n r =>
      (exists x, h !! n = Some x /\ n_parent x = ctx_parent c /\ n_left x = child /\ n_right x = rootid r) /\
      rep h (Some n) r /\ rep_ctx h c (Some n)
  | CR l n c =>
      (exists x, h !! n = Some x /\ n_parent x = ctx_parent c /\ n_left x = rootid l /\ n_right x = child) /\
      rep h (Some n) l /\ rep_ctx h c (Some n)
  end.

Lemma rep_plug h c t : rep h None (plug c t) <-> rep_ctx h c (rootid t) /\ rep h (ctx_parent c) t.
Proof. revert t; induction c; intros t; simpl; [tauto| |]; rewrite IHc; simpl; tauto. Qed.

Lemma rep_frame h h' p t : (forall n, n ∈ inord t -> h' !! n = h !! n) -> rep h p t -> rep h' p t.
Proof.
  revert p; induction t; intros p Hf; simpl; auto. intros (Hx & Hl & Hr). simpl in Hf.
  rewrite Hf by set_solver. split; auto. split; [apply IHt1|apply IHt2]; auto; set_solver.
Qed.
Lemma rep_ctx_frame h h' c o : (forall n, n ∈ ctx_ids c -> h' !! n = h !! n) -> rep_ctx h c o -> rep_ctx h' c o.
Proof.
  revert o; induction c as [|c IHc n r|l n c IHc]; intros o Hf; simpl; auto; intros (Hx & Hr & Hc); simpl in Hf.
  - rewrite Hf by set_solver. split; [done|]. split.
    + eapply rep_frame; [|exact Hr]. intros; apply Hf; set_solver.
    + apply IHc; [|done]. intros; apply Hf; set_solver.
  - rewrite Hf by set_solver. split; [done|]. split.
    + eapply rep_frame; [|exact Hr]. intros; apply Hf; set_solver.
    + apply IHc; [|done]. intros; apply Hf; set_solver.
Qed.
Lemma rep_insert h p t n x : n ∉ inord t -> rep h p t -> rep (<[n := x]> h) p t.
Proof. intros ?. apply rep_frame. intros. rewrite list_lookup_insert_ne; set_solver. Qed.
Lemma rep_ctx_insert h c o n x : n ∉ ctx_ids c -> rep_ctx h c o -> rep_ctx (<[n := x]> h) c o.
Proof. intros ?. apply rep_ctx_frame. intros. rewrite list_lookup_insert_ne; set_solver. Qed.

(* changing the parent pointer at the root of a subtree *)
Lemma rep_reparent h p q t n x : NoDup (inord t) -> rootid t = Some n -> h !! n = Some x ->
  rep h p t -> rep (<[n := with_parent q x]> h) q t.
Proof.
  intros Hnd Hr Hn. destruct t as [|l m r]; simpl in *; [done|]. injection Hr as ->.
  intros ((y & Hy & Hp & Hl & Hr) & Rl & Rr). rewrite Hn in Hy; injection Hy as <-.
  apply NoDup_app in Hnd as (N1 & N2 & N3). apply NoDup_cons in N3 as (N4 & N5).
  split; [|split; apply rep_insert; auto; set_solver].
  exists (with_parent q x). rewrite list_lookup_insert by (eapply lookup_lt_Some; eauto). auto.
Qed.

Lemma rep_lookup h p t n : rep h p t -> n ∈ inord t -> exists x, h !! n = Some x.
Proof.
  revert p; induction t; intros p; simpl; [set_solver|]. intros ((x & Hx & _) & Rl & Rr) Hin.
  apply elem_of_app in Hin as [Hin|Hin]; [eauto|]. apply elem_of_cons in Hin as [->|Hin]; eauto.
Qed.
Lemma rep_ctx_lookup h c o n : rep_ctx h c o -> n ∈ ctx_ids c -> exists x, h !! n = Some x.
Proof.
  revert o; induction c; intros o; simpl; [set_solver| |]; intros ((x & Hx & _) & R1 & R2) Hin;
  apply elem_of_cons in Hin as [->|Hin]; eauto; apply elem_of_app in Hin as [Hin|Hin]; eauto using rep_lookup.
Qed.

Lemma nodup_bound (l : list nat) (m : nat) : NoDup l -> (forall n, n ∈ l -> n < m) -> length l <= m.
Proof.
  intros Hnd Hb. rewrite <- (seq_length m 0). apply submseteq_length.
  apply NoDup_submseteq; auto. intros x Hx. apply elem_of_seq. specialize (Hb x Hx). lia.
Qed.
Lemma rep_size h p t : rep h p t -> NoDup (inord t) -> length (inord t) <= length h.
Proof.
  intros. apply nodup_bound; auto. intros n Hn. destruct (rep_lookup h p t n); auto.
  eapply lookup_lt_Some; eauto.
Qed.
Lemma rep_depth h p t : rep h p t -> NoDup (inord t) -> depth t <= length h.
Proof. intros R N. pose proof (depth_size t). pose proof (rep_size h p t R N). lia. Qed.
Lemma rep_ctx_depth h c o : rep_ctx h c o -> NoDup (ctx_ids c) -> ctx_depth c <= length h.
Proof.
  intros. pose proof (ctx_depth_size c). enough (length (ctx_ids c) <= length h) by lia.
  apply nodup_bound; auto. intros n Hn. edestruct (rep_ctx_lookup h c o n); eauto.
  eapply lookup_lt_Some; eauto.
Qed.

(* ---------- monadic steps ---------- *)
Lemma bind_val {S Y Z} (m : M S Y) (k : Y -> M S Z) s s' y : m s = Val (s', y) -> bind m k s = k y s'.
Proof. unfold bind. intros ->. done. Qed.
Lemma get_val (h : heap) n x : h !! n = Some x -> get n h = Val (h, x).
Proof. unfold get, get_at. intros ->. done. Qed.
Lemma upd_val (h : heap) n x f : h !! n = Some x -> upd n f h = Val (<[n := f x]> h, tt).
Proof. unfold upd, upd_at. intros ->. done. Qed.
Lemma need_val {S Y} (y : Y) (s : S) : need (Some y) s = Val (s, y).
Proof. done. Qed.

(* ---------- heights ---------- *)
Definition height_ok (x : node X) : Prop :=
  forall k, n_height x = Some k -> 1 <= k /\ (n_left x = None -> n_right x = None -> k = 1).
Definition Hok (h : heap) : Prop := forall n x, h !! n = Some x -> height_ok x.
(* two stores that differ in cached heights only *)
Definition hsim (h h' : heap) : Prop :=
  length h' = length h /\ forall n x, h !! n = Some x -> exists k, h' !! n = Some (with_height k x).
Definition same_data (h h' : heap) : Prop := map n_data h' = map n_data h.

Lemma hsim_refl h : hsim h h.
Proof. split; auto. intros n x Hx. exists (n_height x). rewrite Hx. by destruct x. Qed.
Lemma hsim_trans h1 h2 h3 : hsim h1 h2 -> hsim h2 h3 -> hsim h1 h3.
Proof.
  intros [L1 H1] [L2 H2]. split; [congruence|]. intros n x Hx.
  destruct (H1 n x Hx) as [k Hk]. destruct (H2 _ _ Hk) as [k' Hk']. exists k'. rewrite Hk'. done.
Qed.
Lemma hsim_lookup_inv h h' n x' : hsim h h' -> h' !! n = Some x' ->
  exists x, h !! n = Some x /\ x' = with_height (n_height x') x.
Proof.
  intros [L H] Hx. destruct (h !! n) as [x|] eqn:E.
  - destruct (H n x E) as [k Hk]. exists x. split; auto. rewrite Hk in Hx. injection Hx as <-. done.
  - apply lookup_ge_None in E. apply lookup_lt_Some in Hx. lia.
Qed.
Lemma hsim_same_data h h' : hsim h h' -> same_data h h'.
Proof.
  intros [L H]. unfold same_data. apply list_eq. intros i.
  change (map n_data h') with (n_data <$> h'). change (map n_data h) with (n_data <$> h).
  rewrite !list_lookup_fmap. destruct (h !! i) as [x|] eqn:E.
  - destruct (H i x E) as [k ->]. done.
  - apply lookup_ge_None in E. rewrite (lookup_ge_None_2 h') by lia. done.
Qed.
Lemma same_data_refl h : same_data h h. Proof. done. Qed.
Lemma same_data_trans h1 h2 h3 : same_data h1 h2 -> same_data h2 h3 -> same_data h1 h3.
Proof. unfold same_data. congruence. Qed.
Lemma same_data_length h h' : same_data h h' -> length h' = length h.
Proof. intros H. apply (f_equal length) in H. by rewrite !map_length in H. Qed.
Lemma same_data_lookup h h' n x : same_data h h' -> h !! n = Some x ->
  exists x', h' !! n = Some x' /\ n_data x' = n_data x.
Proof.
  intros H Hx. assert (E : (n_data <$> h') !! n = (n_data <$> h) !! n) by (unfold same_data in H; f_equal; exact H).
  rewrite !list_lookup_fmap, Hx in E. destruct (h' !! n) as [x'|]; [|done].
  exists x'. split; auto. by injection E.
Qed.
Lemma same_data_insert h n x x' : h !! n = Some x -> n_data x' = n_data x -> same_data h (<[n := x']> h).
Proof.
  intros Hx Hd. unfold same_data. change (n_data <$> (<[n:=x']> h) = n_data <$> h).
  rewrite list_fmap_insert. rewrite list_insert_id; auto. rewrite list_lookup_fmap, Hx. simpl. congruence.
Qed.
Lemma rep_hsim h h' p t : hsim h h' -> rep h p t -> rep h' p t.
Proof.
  intros Hs. revert p; induction t; intros p; simpl; auto. intros ((x & Hx & ?) & Rl & Rr).
  split; auto. destruct (proj2 Hs _ _ Hx) as [k Hk]. exists (with_height k x). auto.
Qed.
Lemma rep_ctx_hsim h h' c o : hsim h h' -> rep_ctx h c o -> rep_ctx h' c o.
Proof.
  intros Hs. revert o; induction c; intros o; simpl; auto; intros ((x & Hx & ?) & R1 & R2);
  (split; [|split; [eapply rep_hsim; eauto|auto]]);
  destruct (proj2 Hs _ _ Hx) as [k Hk]; exists (with_height k x); auto.
Qed.
Lemma hsim_set_height h n x k : h !! n = Some x -> hsim h (<[n := with_height k x]> h).
Proof.
  intros Hx. split; [by rewrite insert_length|]. intros m y Hy.
  destruct (decide (m = n)) as [->|].
  - rewrite list_lookup_insert by (eapply lookup_lt_Some; eauto). rewrite Hx in Hy; injection Hy as <-. eauto.
  - rewrite list_lookup_insert_ne by done. exists (n_height y). rewrite Hy. by destruct y.
Qed.
Lemma Hok_insert h n x : Hok h -> height_ok x -> Hok (<[n := x]> h).
Proof.
  intros H Hx m y Hy. destruct (decide (m = n)) as [->|].
  - destruct (decide (n < length h)).
    + rewrite list_lookup_insert in Hy by done. by injection Hy as <-.
    + rewrite list_insert_ge in Hy by lia. eauto.
  - rewrite list_lookup_insert_ne in Hy by done. eauto.
Qed.

Lemma height_fuel_spec fuel h p t n :
  rep h p t -> rootid t = Some n -> depth t <= fuel ->
  exists h' k, height_fuel fuel n h = Val (h', k) /\ hsim h h' /\ (Hok h -> Hok h') /\
    (forall x, h !! n = Some x -> n_height x = Some k \/ (n_height x = None /\ 1 <= k)) /\
    (Hok h -> t = leaf n -> k = 1).
Proof.
  revert fuel h p n. induction t as [|l IHl m r IHr]; intros fuel h p n Hrep Hroot Hd; [done|].
  simpl in Hroot. injection Hroot as <-. destruct fuel as [|fuel]; [simpl in Hd; lia|].
  simpl in Hd. destruct Hrep as ((x & Hx & Hp & Hl & Hr) & Rl & Rr).
  simpl. erewrite bind_val by (apply get_val; eauto).
  destruct (n_height x) as [k|] eqn:Ek.
  { exists h, k. split; [done|]. split; [apply hsim_refl|]. split; [auto|]. split.
    - intros y Hy. rewrite Hx in Hy. injection Hy as <-. auto.
    - intros HH Ht. injection Ht as -> ->. destruct (HH _ _ Hx k Ek) as [_ H1]. simpl in *. apply H1; auto. }
  (* left *)
  assert (exists h1 kl, height_or_0 (height_fuel fuel) (n_left x) h = Val (h1, kl) /\ hsim h h1 /\
           (Hok h -> Hok h1) /\ (l = E -> kl = 0)) as (h1 & kl & E1 & S1 & O1 & Z1).
  { rewrite Hl. destruct l as [|la lb lc].
    - exists h, 0. split; [done|]. split; [apply hsim_refl|auto].
    - destruct (IHl fuel h (Some m) lb Rl eq_refl ltac:(lia)) as (h1 & k1 & ? & ? & ? & _).
      exists h1, k1. simpl. split_and!; auto; done. }
  erewrite bind_val by eauto.
  assert (exists h2 kr, height_or_0 (height_fuel fuel) (n_right x) h1 = Val (h2, kr) /\ hsim h1 h2 /\
           (Hok h1 -> Hok h2) /\ (r = E -> kr = 0)) as (h2 & kr & E2 & S2 & O2 & Z2).
  { rewrite Hr. destruct r as [|ra rb rc].
    - exists h1, 0. split; [done|]. split; [apply hsim_refl|auto].
    - destruct (IHr fuel h1 (Some m) rb (rep_hsim _ _ _ _ S1 Rr) eq_refl ltac:(lia)) as (h3 & k1 & ? & ? & ? & _).
      exists h3, k1. simpl. split_and!; auto; done. }
  erewrite bind_val by eauto.
  pose proof (hsim_trans _ _ _ S1 S2) as S12.
  destruct (proj2 S12 _ _ Hx) as [k2 Hk2].
  erewrite bind_val by (apply upd_val; eauto).
  eexists _, _. split; [reflexivity|]. split; [|split; [|split]].
  - eapply hsim_trans; [exact S12|]. apply hsim_set_height. done.
  - intros HH. apply Hok_insert; auto. intros k Hk. simpl in Hk. injection Hk as <-. split; [lia|].
    simpl. rewrite Hl, Hr. intros Hl0 Hr0. destruct l, r; try done. rewrite Z1, Z2; auto.
  - intros y Hy. rewrite Hx in Hy. injection Hy as <-. right. split; [done|]. lia.
  - intros _ Ht. injection Ht as -> ->. rewrite Z1, Z2; auto.
Qed.

Lemma height_spec h p t n : rep h p t -> rootid t = Some n -> NoDup (inord t) ->
  exists h' k, height n h = Val (h', k) /\ hsim h h' /\ (Hok h -> Hok h') /\ (Hok h -> t = leaf n -> k = 1).
Proof.
  intros Hrep Hr Hnd. pose proof (rep_depth _ _ _ Hrep Hnd).
  destruct (height_fuel_spec (S (length h)) h p t n Hrep Hr ltac:(lia)) as (h' & k & ? & ? & ? & _ & ?).
  exists h', k. auto.
Qed.

(* what reading a child's height does; [None] gives 0 *)
Lemma height_or_0_spec h p t : rep h p t -> NoDup (inord t) ->
  exists h' k, height_or_0 height (rootid t) h = Val (h', k) /\ hsim h h' /\ (Hok h -> Hok h') /\
    (t = E -> k = 0) /\ (Hok h -> forall n, t = leaf n -> k = 1).
Proof.
  intros Hrep Hnd. destruct t as [|l n r].
  - exists h, 0. split; [done|]. split; [apply hsim_refl|]. split_and!; auto. intros; done.
  - destruct (height_spec h p _ n Hrep eq_refl Hnd) as (h' & k & ? & ? & ? & Hl).
    exists h', k. split_and!; auto; [done|]. intros HH m Hm. apply Hl; auto. injection Hm as -> -> ->. done.
Qed.

Lemma NoDup_T l n r : NoDup (inord (T l n r)) ->
  NoDup (inord l) /\ NoDup (inord r) /\ n ∉ inord l /\ n ∉ inord r /\ (forall x, x ∈ inord l -> x ∉ inord r).
Proof.
  simpl. intros H. apply NoDup_app in H as (N1 & N2 & N3). apply NoDup_cons in N3 as (N4 & N5).
  split_and!; auto; set_solver.
Qed.

Lemma balance_of_spec h p l n r : rep h p (T l n r) -> NoDup (inord (T l n r)) ->
  exists h' (b : Z), balance_of n h = Val (h', b) /\ hsim h h' /\ (Hok h -> Hok h') /\
    ((0 < b)%Z -> l <> E) /\ ((b < 0)%Z -> r <> E) /\
    (Hok h -> (1 < b)%Z -> forall m, l <> leaf m) /\ (Hok h -> (b < -1)%Z -> forall m, r <> leaf m) /\
    (Hok h -> l <> E -> (b < 0)%Z -> forall m, r <> leaf m) /\
    (Hok h -> r <> E -> (0 < b)%Z -> forall m, l <> leaf m).
Proof.
  intros ((x & Hx & Hp & Hl & Hr) & Rl & Rr) Hnd.
  apply NoDup_T in Hnd as (N1 & N2 & _).
  unfold balance_of. erewrite bind_val by (apply get_val; eauto). rewrite Hl, Hr.
  destruct (height_or_0_spec h (Some n) l Rl N1) as (h1 & kl & E1 & S1 & O1 & Z1 & L1).
  erewrite bind_val by eauto.
  destruct (height_or_0_spec h1 (Some n) r (rep_hsim _ _ _ _ S1 Rr) N2) as (h2 & kr & E2 & S2 & O2 & Z2 & L2).
  erewrite bind_val by eauto.
  (* a non-empty child has height at least 1, by the cached value or by computation *)
  assert (P1 : Hok h -> l <> E -> 1 <= kl).
  { intros HH Hne. destruct l as [|la m lc]; [done|]. simpl in E1. unfold height in E1.
    pose proof (rep_depth _ _ _ Rl N1).
    destruct (height_fuel_spec (S (length h)) h (Some n) _ m Rl eq_refl ltac:(lia)) as (h' & k & E' & _ & _ & K & _).
    rewrite E1 in E'. injection E' as <- <-. destruct Rl as ((y & Hy & _) & _).
    destruct (K _ Hy) as [K'|[_ K']]; auto. destruct (HH _ _ Hy kl K'). done. }
  assert (P2 : Hok h -> r <> E -> 1 <= kr).
  { intros HH Hne. destruct r as [|la m lc]; [done|]. simpl in E2. unfold height in E2.
    pose proof (rep_hsim _ _ _ _ S1 Rr) as Rr1.
    pose proof (rep_depth _ _ _ Rr1 N2).
    destruct (height_fuel_spec (S (length h1)) h1 (Some n) _ m Rr1 eq_refl ltac:(lia)) as (h' & k & E' & _ & _ & K & _).
    rewrite E2 in E'. injection E' as <- <-. destruct Rr1 as ((y & Hy & _) & _).
    destruct (K _ Hy) as [K'|[_ K']]; auto. destruct (O1 HH _ _ Hy kr K'). done. }
  eexists _, _. split; [reflexivity|]. split; [eapply hsim_trans; eauto|]. split; [auto|].
  split_and!.
  - intros Hb ->. rewrite Z1 in Hb by done. lia.
  - intros Hb ->. rewrite Z2 in Hb by done. lia.
  - intros HH Hb m ->. rewrite (L1 HH m) in Hb by done. lia.
  - intros HH Hb m ->. rewrite (L2 (O1 HH) m) in Hb by done. lia.
  - intros HH Hne Hb m ->. rewrite (L2 (O1 HH) m) in Hb by done. specialize (P1 HH Hne). lia.
  - intros HH Hne Hb m ->. rewrite (L1 HH m) in Hb by done. specialize (P2 HH Hne). lia.
Qed.


Lemma update_height_spec h p l n r : rep h p (T l n r) -> NoDup (inord (T l n r)) ->
  exists h', update_height n h = Val (h', tt) /\ hsim h h' /\ (Hok h -> Hok h').
Proof.
  intros ((x & Hx & Hp & Hl & Hr) & Rl & Rr) Hnd.
  apply NoDup_T in Hnd as (N1 & N2 & _).
  unfold update_height, calculate_height.
  destruct (height_or_0_spec h (Some n) l Rl N1) as (h1 & kl & E1 & S1 & O1 & Z1 & L1).
  destruct (height_or_0_spec h1 (Some n) r (rep_hsim _ _ _ _ S1 Rr) N2) as (h2 & kr & E2 & S2 & O2 & Z2 & L2).
  erewrite bind_val.
  2:{ erewrite bind_val by (apply get_val; eauto). rewrite Hl, Hr.
      erewrite bind_val by eauto. erewrite bind_val by eauto. reflexivity. }
  pose proof (hsim_trans _ _ _ S1 S2) as S12. destruct (proj2 S12 _ _ Hx) as [k2 Hk2].
  erewrite upd_val by eauto. eexists. split; [reflexivity|]. split.
  - eapply hsim_trans; [exact S12|]. apply hsim_set_height. done.
  - intros HH. apply Hok_insert; auto. intros k Hk. simpl in Hk. injection Hk as <-. split; [lia|].
    simpl. rewrite Hl, Hr. intros Hl0 Hr0. destruct l, r; try done. rewrite Z1, Z2; auto.
Qed.

(* ---------- exact heights: every cached height in the tree is the true one ---------- *)
Definition cached (h : heap) (n : nat) : option nat := h !! n ≫= n_height.
Fixpoint cok (h : heap) (t : tree) : Prop :=
  match t with
  | E => True
  | T l n r => (forall k, cached h n = Some k -> k = depth (T l n r)) /\ cok h l /\ cok h r
  end.
Lemma cok_frame h h' t : (forall n, n ∈ inord t -> cached h' n = cached h n) -> cok h t -> cok h' t.
Proof.
  induction t as [|l IHl n r IHr]; intros HF; [done|]. simpl in *. intros (Hn & Hl & Hr). split_and!.
  - rewrite HF by set_solver. done.
  - apply IHl; auto. intros m Hm. apply HF. set_solver.
  - apply IHr; auto. intros m Hm. apply HF. set_solver.
Qed.
Lemma cached_upd h n f m h' y : upd n f h = Val (h', y) -> (forall x, n_height (f x) = n_height x) -> cached h' m = cached h m.
Proof.
  unfold upd, upd_at. destruct (h !! n) as [x|] eqn:Ex; [|done]. intros [= <- <-] Hf.
  unfold cached. destruct (decide (m = n)) as [->|].
  - rewrite list_lookup_insert by (eapply lookup_lt_Some; eauto). rewrite Ex. simpl. apply Hf.
  - rewrite list_lookup_insert_ne by done. done.
Qed.
Lemma bind_inv' {S Y Z} (m : M S Y) (k : Y -> M S Z) s s' z : bind m k s = Val (s', z) ->
  exists s1 y, m s = Val (s1, y) /\ k y s1 = Val (s', z).
Proof. unfold bind. destruct (m s) as [[s1 y]|e] eqn:E; [|done]. eauto. Qed.
Lemma cached_set_left h n c h' y m : set_left n c h = Val (h', y) -> cached h' m = cached h m.
Proof.
  unfold set_left. intros (h1 & [] & E1 & E2)%bind_inv'.
  rewrite (cached_upd _ _ _ m _ _ E2) by done.
  destruct c; [by apply (cached_upd _ _ _ m _ _ E1)|]. by injection E1 as ->.
Qed.
Lemma cached_set_right h n c h' y m : set_right n c h = Val (h', y) -> cached h' m = cached h m.
Proof.
  unfold set_right. intros (h1 & [] & E1 & E2)%bind_inv'.
  rewrite (cached_upd _ _ _ m _ _ E2) by done.
  destruct c; [by apply (cached_upd _ _ _ m _ _ E1)|]. by injection E1 as ->.
Qed.
Lemma is_left_child_state (h : heap) n (h' : heap) b : is_left_child n h = Val (h', b) -> h' = h.
Proof.
  unfold is_left_child. intros (h1 & x & E1 & E2)%bind_inv'. unfold get, get_at in E1. destruct (h !! n); [|done].
  injection E1 as <- <-. destruct (n_parent _); [|by injection E2].
  apply bind_inv' in E2 as (h2 & y & E1 & E2). unfold get, get_at in E1. destruct (h !! _); [|done].
  injection E1 as <- <-. by injection E2.
Qed.
Lemma cached_reattach (h : heap) z y g h' u m : reattach z y g h = Val (h', u) -> cached h' m = cached h m.
Proof.
  unfold reattach. intros (h1 & [] & E1 & E2)%bind_inv'.
  rewrite <- (cached_upd _ _ _ m _ _ E1) by done. destruct g as [g|]; [|by injection E2 as ->].
  apply bind_inv' in E2 as (h2 & b & E2 & E3). apply is_left_child_state in E2 as ->.
  destruct b; [by eapply cached_set_left|by eapply cached_set_right].
Qed.

Lemma height_fuel_exact fuel h p t n h' k :
  rep h p t -> rootid t = Some n -> depth t <= fuel -> NoDup (inord t) -> height_fuel fuel n h = Val (h', k) ->
  (forall m, m ∉ inord t -> cached h' m = cached h m) /\ (cok h t -> k = depth t /\ cok h' t).
Proof.
  revert fuel h p n h' k. induction t as [|l IHl m r IHr]; intros fuel h p n h' k R Hroot Hd Hnd; [done|].
  simpl in Hroot. injection Hroot as <-. destruct fuel as [|fuel]; [simpl in Hd; lia|].
  simpl in Hd. destruct R as ((x & Hx & Hp & Hl & Hr) & Rl & Rr).
  apply NoDup_T in Hnd as (N1 & N2 & N3 & N4 & N5).
  cbn [height_fuel]. erewrite bind_val by (apply get_val; eauto).
  destruct (n_height x) as [k0|] eqn:Ek.
  { intros [= <- <-]. split; [done|]. intros (Hn & Hl' & Hr'). split; [|done]. apply Hn. unfold cached. rewrite Hx. done. }
  intros (h1 & kl & E1 & (h2 & kr & E2 & (h3 & [] & E3 & [= <- <-])%bind_inv')%bind_inv')%bind_inv'.
  assert (Pl : (forall m, m ∉ inord l -> cached h1 m = cached h m) /\ (cok h l -> kl = depth l /\ cok h1 l) /\ hsim h h1).
  { rewrite Hl in E1. destruct l as [|la lb lc].
    - injection E1 as <- <-. split_and!; auto using hsim_refl.
    - simpl in E1. destruct (IHl fuel h (Some m) lb h1 kl Rl eq_refl ltac:(simpl in Hd |- *; lia) N1 E1). split_and!; auto.
      destruct (height_fuel_spec fuel h (Some m) _ lb Rl eq_refl ltac:(simpl in Hd |- *; lia)) as (h1' & k1 & E1' & S1 & _).
      rewrite E1 in E1'. by injection E1' as <- <-. }
  destruct Pl as (Fl & Pl & Sl). pose proof (rep_hsim _ _ _ _ Sl Rr) as Rr1.
  assert (Pr : (forall m, m ∉ inord r -> cached h2 m = cached h1 m) /\ (cok h1 r -> kr = depth r /\ cok h2 r) /\ hsim h1 h2).
  { rewrite Hr in E2. destruct r as [|ra rb rc].
    - injection E2 as <- <-. split_and!; auto using hsim_refl.
    - simpl in E2. destruct (IHr fuel h1 (Some m) rb h2 kr Rr1 eq_refl ltac:(simpl in Hd |- *; lia) N2 E2). split_and!; auto.
      destruct (height_fuel_spec fuel h1 (Some m) _ rb Rr1 eq_refl ltac:(simpl in Hd |- *; lia)) as (h1' & k1 & E1' & S1 & _).
      rewrite E2 in E1'. by injection E1' as <- <-. }
  destruct Pr as (Fr & Pr & Sr).
  destruct (proj2 (hsim_trans _ _ _ Sl Sr) _ _ Hx) as [k2 Hk2].
  rewrite (upd_val _ _ _ _ Hk2) in E3. injection E3 as <-.
  assert (F3 : forall q, q <> m -> cached (<[m:=with_height (Some (1 + max kl kr)) (with_height k2 x)]> h2) q = cached h2 q).
  { intros q Hq. unfold cached. rewrite list_lookup_insert_ne by done. done. }
  split.
  - intros q Hq. simpl in Hq. rewrite F3 by set_solver. rewrite Fr by set_solver. apply Fl. set_solver.
  - intros (Hn & Hl' & Hr'). destruct (Pl Hl') as [-> Cl]. destruct Pr as [-> Cr].
    { eapply cok_frame; [|exact Hr']. intros q Hq. apply Fl. clear - N5 Hq. set_solver. }
    split; [simpl; lia|]. cbn [cok]. split_and!.
    + intros k. unfold cached. rewrite list_lookup_insert by (eapply lookup_lt_Some; eauto). simpl. intros [= <-]. lia.
    + eapply cok_frame; [|exact Cl]. intros q Hq. rewrite F3 by (clear - N3 Hq; set_solver). apply Fr. clear - N5 Hq; set_solver.
    + eapply cok_frame; [|exact Cr]. intros q Hq. rewrite F3 by (clear - N4 Hq; set_solver). done.
Qed.

Lemma height_or_0_exact h p t h' k : rep h p t -> NoDup (inord t) -> height_or_0 height (rootid t) h = Val (h', k) ->
  hsim h h' /\ (forall m, m ∉ inord t -> cached h' m = cached h m) /\ (cok h t -> k = depth t /\ cok h' t).
Proof.
  intros R Hnd E1. destruct (height_or_0_spec h p t R Hnd) as (h1 & k1 & E1' & S1 & _).
  rewrite E1 in E1'. injection E1' as <- <-. split; [done|]. destruct t as [|l n r].
  - injection E1 as <- <-. auto.
  - pose proof (rep_depth _ _ _ R Hnd). eapply height_fuel_exact; [exact R|reflexivity| |exact Hnd|exact E1]. lia.
Qed.

Lemma balance_of_exact h p l n r h' b : rep h p (T l n r) -> NoDup (inord (T l n r)) -> balance_of n h = Val (h', b) ->
  hsim h h' /\ (forall m, m ∉ inord l -> m ∉ inord r -> cached h' m = cached h m) /\
  (cok h l -> cok h r -> b = (Z.of_nat (depth l) - Z.of_nat (depth r))%Z /\ cok h' l /\ cok h' r).
Proof.
  intros ((x & Hx & Hp & Hl & Hr) & Rl & Rr) Hnd. apply NoDup_T in Hnd as (N1 & N2 & N3 & N4 & N5).
  unfold balance_of. erewrite bind_val by (apply get_val; eauto). rewrite Hl, Hr.
  intros (h1 & kl & E1 & (h2 & kr & E2 & [= <- <-])%bind_inv')%bind_inv'.
  destruct (height_or_0_exact _ _ _ _ _ Rl N1 E1) as (S1 & F1 & P1).
  destruct (height_or_0_exact _ _ _ _ _ (rep_hsim _ _ _ _ S1 Rr) N2 E2) as (S2 & F2 & P2).
  split; [by eapply hsim_trans|]. split.
  - intros m H1 H2. rewrite F2, F1; auto.
  - intros Cl Cr. destruct (P1 Cl) as [-> Cl1]. destruct P2 as [-> Cr2].
    { eapply cok_frame; [|exact Cr]. intros q Hq. apply F1. clear - N5 Hq. set_solver. }
    split; [lia|]. split; [|done]. eapply cok_frame; [|exact Cl1]. intros q Hq. apply F2. clear - N5 Hq. set_solver.
Qed.

Lemma update_height_exact h p l n r h' u : rep h p (T l n r) -> NoDup (inord (T l n r)) -> update_height n h = Val (h', u) ->
  hsim h h' /\ (forall m, m <> n -> m ∉ inord l -> m ∉ inord r -> cached h' m = cached h m) /\
  (cok h l -> cok h r -> cok h' (T l n r)).
Proof.
  intros ((x & Hx & Hp & Hl & Hr) & Rl & Rr) Hnd. apply NoDup_T in Hnd as (N1 & N2 & N3 & N4 & N5).
  unfold update_height, calculate_height. intros (h3 & k & E0 & E3)%bind_inv'. revert E0.
  erewrite bind_val by (apply get_val; eauto). rewrite Hl, Hr.
  intros (h1 & kl & E1 & (h2 & kr & E2 & [= <- <-])%bind_inv')%bind_inv'.
  destruct (height_or_0_exact _ _ _ _ _ Rl N1 E1) as (S1 & F1 & P1).
  destruct (height_or_0_exact _ _ _ _ _ (rep_hsim _ _ _ _ S1 Rr) N2 E2) as (S2 & F2 & P2).
  pose proof (hsim_trans _ _ _ S1 S2) as S12. destruct (proj2 S12 _ _ Hx) as [k2 Hk2].
  rewrite (upd_val _ _ _ _ Hk2) in E3. injection E3 as <- <-.
  assert (F3 : forall q, q <> n -> cached (<[n:=with_height (Some (S (max kl kr))) (with_height k2 x)]> h2) q = cached h2 q).
  { intros q Hq. unfold cached. rewrite list_lookup_insert_ne by done. done. }
  split; [|split].
  - eapply hsim_trans; [exact S12|]. apply hsim_set_height. done.
  - intros m H0 H1 H2. rewrite F3, F2, F1; auto.
  - intros Cl Cr. destruct (P1 Cl) as [-> Cl1]. destruct P2 as [-> Cr2].
    { eapply cok_frame; [|exact Cr]. intros q Hq. apply F1. clear - N5 Hq. set_solver. }
    cbn [cok]. split_and!.
    + intros k. unfold cached. rewrite list_lookup_insert by (eapply lookup_lt_Some; eauto). simpl. intros [= <-]. lia.
    + eapply cok_frame; [|exact Cl1]. intros q Hq. rewrite F3 by (clear - N3 Hq; set_solver). apply F2. clear - N5 Hq; set_solver.
    + eapply cok_frame; [|exact Cr2]. intros q Hq. rewrite F3 by (clear - N4 Hq; set_solver). done.
Qed.

(* ---------- rotations ---------- *)
Lemma height_ok_parent (x : node X) q : height_ok x -> height_ok (with_parent q x).
Proof. done. Qed.
Lemma height_ok_left (x : node X) k : height_ok x -> height_ok (with_left (Some k) x).
Proof. intros H j Hj. destruct (H j Hj). split; auto. done. Qed.
Lemma height_ok_right (x : node X) k : height_ok x -> height_ok (with_right (Some k) x).
Proof. intros H j Hj. destruct (H j Hj). split; auto. done. Qed.

Lemma set_left_val (h : heap) n x c k y : h !! n = Some x -> h !! k = Some y -> n <> k -> c = Some k ->
  set_left n c h = Val (<[n := with_left c x]> (<[k := with_parent (Some n) y]> h), tt).
Proof.
  intros Hn Hk Hne ->. unfold set_left. erewrite bind_val by (apply upd_val; eauto).
  apply upd_val. rewrite list_lookup_insert_ne by done. done.
Qed.
Lemma set_right_val (h : heap) n x c k y : h !! n = Some x -> h !! k = Some y -> n <> k -> c = Some k ->
  set_right n c h = Val (<[n := with_right c x]> (<[k := with_parent (Some n) y]> h), tt).
Proof.
  intros Hn Hk Hne ->. unfold set_right. erewrite bind_val by (apply upd_val; eauto).
  apply upd_val. rewrite list_lookup_insert_ne by done. done.
Qed.

Lemma rep_ctx_parent_lookup h C o g : rep_ctx h C o -> ctx_parent C = Some g -> g ∈ ctx_ids C /\
  exists x, h !! g = Some x.
Proof. destruct C; simpl; intros R [= ->]; destruct R as ((x & Hx & _) & _); split; eauto; set_solver. Qed.

(* replacing the child of the hole's parent *)
Lemma rep_ctx_hang_l h C n r z y x : rep_ctx h (CL C n r) (Some z) -> h !! n = Some x -> NoDup (ctx_ids (CL C n r)) ->
  rep_ctx (<[n := with_left (Some y) x]> h) (CL C n r) (Some y).
Proof.
  simpl. intros ((x' & Hx' & Hp & Hl & Hr) & Rr & Rc) Hx Hnd. rewrite Hx in Hx'. injection Hx' as <-.
  apply NoDup_cons in Hnd as (N1 & N2).
  split; [|split; [apply rep_insert|apply rep_ctx_insert]; auto; set_solver].
  exists (with_left (Some y) x). rewrite list_lookup_insert by (eapply lookup_lt_Some; eauto). auto.
Qed.
Lemma rep_ctx_hang_r h C n l z y x : rep_ctx h (CR l n C) (Some z) -> h !! n = Some x -> NoDup (ctx_ids (CR l n C)) ->
  rep_ctx (<[n := with_right (Some y) x]> h) (CR l n C) (Some y).
Proof.
  simpl. intros ((x' & Hx' & Hp & Hl & Hr) & Rr & Rc) Hx Hnd. rewrite Hx in Hx'. injection Hx' as <-.
  apply NoDup_cons in Hnd as (N1 & N2).
  split; [|split; [apply rep_insert|apply rep_ctx_insert]; auto; set_solver].
  exists (with_right (Some y) x). rewrite list_lookup_insert by (eapply lookup_lt_Some; eauto). auto.
Qed.

Lemma is_left_child_spec h C z x : rep_ctx h C (Some z) -> h !! z = Some x -> n_parent x = ctx_parent C ->
  z ∉ ctx_ids C ->
  is_left_child z h = Val (h, match C with CL _ _ _ => true | _ => false end).
Proof.
  intros Rc Hz Hp Hn. unfold is_left_child. erewrite bind_val by (apply get_val; eauto). rewrite Hp.
  destruct C as [|C n r|l n C]; simpl in *; auto; destruct Rc as ((y & Hy & _ & Hl & Hr) & R & _);
  erewrite bind_val by (apply get_val; eauto); unfold ret; f_equal; f_equal; rewrite Hl.
  - rewrite bool_decide_eq_true_2; auto.
  - rewrite bool_decide_eq_false_2; auto. intros Hr'. destruct l; simpl in *; [done|]. injection Hr' as ->. set_solver.
Qed.
Lemma is_right_child_spec h C z x : rep_ctx h C (Some z) -> h !! z = Some x -> n_parent x = ctx_parent C ->
  z ∉ ctx_ids C ->
  is_right_child z h = Val (h, match C with CR _ _ _ => true | _ => false end).
Proof.
  intros Rc Hz Hp Hn. unfold is_right_child. erewrite bind_val by (apply get_val; eauto). rewrite Hp.
  destruct C as [|C n r|l n C]; simpl in *; auto; destruct Rc as ((y & Hy & _ & Hl & Hr) & R & _);
  erewrite bind_val by (apply get_val; eauto); unfold ret; f_equal; f_equal; rewrite Hr.
  - rewrite bool_decide_eq_false_2; auto. intros Hr'. destruct r; simpl in *; [done|]. injection Hr' as ->. set_solver.
  - rewrite bool_decide_eq_true_2; auto.
Qed.

Lemma reattach_spec h C z y xz xy :
  rep_ctx h C (Some z) -> h !! z = Some xz -> n_parent xz = ctx_parent C -> h !! y = Some xy ->
  z ∉ ctx_ids C -> y ∉ ctx_ids C -> z <> y -> NoDup (ctx_ids C) ->
  exists h', reattach z y (ctx_parent C) h = Val (h', tt) /\ rep_ctx h' C (Some y) /\
    h' !! y = Some (with_parent (ctx_parent C) xy) /\
    (forall n, n <> y -> n ∉ ctx_ids C -> h' !! n = h !! n) /\ same_data h h' /\ (Hok h -> Hok h').
Proof.
  intros Rc Hz Hpz Hy Nz Ny Hzy Hnd. unfold reattach.
  pose proof (lookup_lt_Some _ _ _ Hy) as Ly.
  set (h1 := <[y := with_parent (ctx_parent C) xy]> h).
  assert (S1 : same_data h h1) by (eapply same_data_insert; eauto; done).
  assert (O1 : Hok h -> Hok h1) by (intros HH; apply Hok_insert; auto; apply height_ok_parent; eapply HH; eauto).
  assert (Rc1 : rep_ctx h1 C (Some z)) by (apply rep_ctx_insert; auto).
  assert (Hy1 : h1 !! y = Some (with_parent (ctx_parent C) xy)) by (by apply list_lookup_insert).
  assert (Hz1 : h1 !! z = Some xz) by (unfold h1; rewrite list_lookup_insert_ne by done; done).
  erewrite bind_val by (apply upd_val; eauto). fold h1.
  destruct C as [|C g r|l g C]; simpl ctx_parent in *; cbn [ctx_parent].
  - exists h1. split_and!; auto. intros. unfold h1. rewrite list_lookup_insert_ne; auto.
  - assert (Hgy : g <> y) by set_solver.
    destruct Rc1 as ((xg & Hg & Hpg & Hlg & Hrg) & Rr & RC).
    erewrite bind_val; [|eapply (is_left_child_spec h1 (CL C g r)); eauto; simpl; eauto 10]; cbv beta iota.
    erewrite (set_left_val h1 g xg (Some y) y) by eauto.
    replace (<[y:=with_parent (Some g) (with_parent (Some g) xy)]> h1) with h1.
    2:{ rewrite list_insert_id; auto. }
    eexists. split; [reflexivity|]. split_and!.
    + eapply rep_ctx_hang_l; eauto. simpl. eauto 10.
    + rewrite list_lookup_insert_ne by done. done.
    + intros n Hn Hni. rewrite list_lookup_insert_ne by set_solver. unfold h1.
      rewrite list_lookup_insert_ne by done. done.
    + eapply same_data_trans; eauto. eapply same_data_insert; eauto.
    + intros HH. apply Hok_insert; auto. apply height_ok_left. eapply O1; eauto.
  - assert (Hgy : g <> y) by set_solver.
    destruct Rc1 as ((xg & Hg & Hpg & Hlg & Hrg) & Rr & RC).
    erewrite bind_val; [|eapply (is_left_child_spec h1 (CR l g C)); eauto; simpl; eauto 10]; cbv beta iota.
    erewrite (set_right_val h1 g xg (Some y) y) by eauto.
    replace (<[y:=with_parent (Some g) (with_parent (Some g) xy)]> h1) with h1.
    2:{ rewrite list_insert_id; auto. }
    eexists. split; [reflexivity|]. split_and!.
    + eapply rep_ctx_hang_r; eauto. simpl. eauto 10.
    + rewrite list_lookup_insert_ne by done. done.
    + intros n Hn Hni. rewrite list_lookup_insert_ne by set_solver. unfold h1.
      rewrite list_lookup_insert_ne by done. done.
    + eapply same_data_trans; eauto. eapply same_data_insert; eauto.
    + intros HH. apply Hok_insert; auto. apply height_ok_right. eapply O1; eauto.
Qed.

(* moving a subtree below another node *)
Lemma set_right_spec h z xz b q :
  h !! z = Some xz -> rep h q b -> z ∉ inord b -> NoDup (inord b) ->
  exists h', set_right z (rootid b) h = Val (h', tt) /\
    h' !! z = Some (with_right (rootid b) xz) /\ rep h' (Some z) b /\
    (forall n, n <> z -> n ∉ inord b -> h' !! n = h !! n) /\ same_data h h' /\ 
    (Hok h -> b <> E -> Hok h').
Proof.
  intros Hz Rb Nz Hnd. pose proof (lookup_lt_Some _ _ _ Hz). destruct b as [|b1 m b2].
  - simpl. unfold set_right. erewrite bind_val by reflexivity. erewrite upd_val by eauto.
    eexists. split; [reflexivity|]. split; [by apply list_lookup_insert|]. split; [done|]. split.
    + intros. by rewrite list_lookup_insert_ne.
    + split; [eapply same_data_insert; eauto|done].
  - destruct (proj1 Rb) as (xm & Hm & _). assert (z <> m) by set_solver.
    cbn [rootid]. erewrite (set_right_val h z xz (Some m) m) by eauto.
    eexists. split; [reflexivity|]. split; [apply list_lookup_insert; by rewrite insert_length|].
    split; [apply rep_insert; auto; eapply rep_reparent; eauto|]. split.
    + intros n Hn Hni. rewrite list_lookup_insert_ne by done. rewrite list_lookup_insert_ne; auto. set_solver.
    + split.
      * refine (same_data_trans _ _ _ (same_data_insert h m xm (with_parent (Some z) xm) Hm eq_refl) _).
        eapply same_data_insert. { rewrite list_lookup_insert_ne by done. eauto. } done.
      * intros HH _. apply Hok_insert; [apply Hok_insert|]; auto.
        -- apply height_ok_parent; eauto.
        -- apply height_ok_right; eauto.
Qed.
Lemma set_left_spec h z xz b q :
  h !! z = Some xz -> rep h q b -> z ∉ inord b -> NoDup (inord b) ->
  exists h', set_left z (rootid b) h = Val (h', tt) /\
    h' !! z = Some (with_left (rootid b) xz) /\ rep h' (Some z) b /\
    (forall n, n <> z -> n ∉ inord b -> h' !! n = h !! n) /\ same_data h h' /\
    (Hok h -> b <> E -> Hok h').
Proof.
  intros Hz Rb Nz Hnd. pose proof (lookup_lt_Some _ _ _ Hz). destruct b as [|b1 m b2].
  - simpl. unfold set_left. erewrite bind_val by reflexivity. erewrite upd_val by eauto.
    eexists. split; [reflexivity|]. split; [by apply list_lookup_insert|]. split; [done|]. split.
    + intros. by rewrite list_lookup_insert_ne.
    + split; [eapply same_data_insert; eauto|done].
  - destruct (proj1 Rb) as (xm & Hm & _). assert (z <> m) by set_solver.
    cbn [rootid]. erewrite (set_left_val h z xz (Some m) m) by eauto.
    eexists. split; [reflexivity|]. split; [apply list_lookup_insert; by rewrite insert_length|].
    split; [apply rep_insert; auto; eapply rep_reparent; eauto|]. split.
    + intros n Hn Hni. rewrite list_lookup_insert_ne by done. rewrite list_lookup_insert_ne; auto. set_solver.
    + split.
      * refine (same_data_trans _ _ _ (same_data_insert h m xm (with_parent (Some z) xm) Hm eq_refl) _).
        eapply same_data_insert. { rewrite list_lookup_insert_ne by done. eauto. } done.
      * intros HH _. apply Hok_insert; [apply Hok_insert|]; auto.
        -- apply height_ok_parent; eauto.
        -- apply height_ok_left; eauto.
Qed.

Lemma NoDup_app_inv (l k : list nat) : NoDup (l ++ k) -> NoDup l /\ NoDup k /\ (forall x, x ∈ l -> x ∉ k).
Proof. intros H. apply NoDup_app in H. tauto. Qed.

Lemma rotate_left_spec_exact h C a z b y c :
  rep_ctx h C (Some z) -> rep h (ctx_parent C) (T a z (T b y c)) ->
  NoDup (ctx_ids C ++ inord (T a z (T b y c))) ->
  exists h', rotate_left z h = Val (h', y) /\ rep_ctx h' C (Some y) /\
    rep h' (ctx_parent C) (T (T a z b) y c) /\ same_data h h' /\ (Hok h -> b <> E -> Hok h') /\
    (forall m, m ∉ inord (T a z (T b y c)) -> cached h' m = cached h m) /\ (cok h a -> cok h b -> cok h c -> cok h' (T (T a z b) y c)).
Proof.
  intros Rc ((xz & Hz & Hpz & Hlz & Hrz) & Ra & ((xy & Hy & Hpy & Hly & Hry) & Rb & Rcc)) Hnd.
  apply NoDup_app_inv in Hnd as (NC & NT & ND).
  apply NoDup_T in NT as (Na & NTr & Nza & Nzr & Nar).
  pose proof NTr as NTr'. apply NoDup_T in NTr' as (Nb & Nc & Nyb & Nyc & Nbc).
  simpl in Nzr, Nar, ND. simpl in Hrz.
  assert (Hzy : z <> y) by set_solver.
  assert (NzC : z ∉ ctx_ids C) by set_solver. assert (NyC : y ∉ ctx_ids C) by set_solver.
  unfold rotate_left.
  erewrite bind_val by (apply get_val; eauto). rewrite Hrz.
  erewrite bind_val by apply need_val.
  erewrite bind_val by (apply get_val; eauto). rewrite Hpz.
  destruct (reattach_spec h C z y xz xy Rc Hz Hpz Hy NzC NyC Hzy NC) as (h1 & E1 & Rc1 & Hy1 & F1 & D1 & O1).
  erewrite bind_val by eauto.
  assert (Hz1 : h1 !! z = Some xz) by (rewrite F1; auto).
  pose proof (set_left_val h1 y _ (Some z) z _ Hy1 Hz1 (not_eq_sym Hzy) eq_refl) as E2.
  erewrite bind_val by exact E2.
  set (h2 := <[y:=_]> _) in *.
  assert (Hz2 : h2 !! z = Some (with_parent (Some y) xz)).
  { unfold h2. rewrite list_lookup_insert_ne by done. rewrite list_lookup_insert; auto. eapply lookup_lt_Some; eauto. }
  assert (Hy2 : h2 !! y = Some (with_left (Some z) (with_parent (ctx_parent C) xy))).
  { unfold h2. rewrite list_lookup_insert; auto. rewrite insert_length. eapply lookup_lt_Some; eauto. }
  assert (F2 : forall n, n <> y -> n <> z -> n ∉ ctx_ids C -> h2 !! n = h !! n).
  { intros. unfold h2. rewrite !list_lookup_insert_ne by done. auto. }
  assert (Rc2 : rep_ctx h2 C (Some y)) by (apply rep_ctx_insert; auto; apply rep_ctx_insert; auto).
  assert (Rb2 : rep h2 (Some y) b) by (eapply rep_frame; [|exact Rb]; intros; apply F2; set_solver).
  assert (D2 : same_data h h2).
  { eapply same_data_trans; [exact D1|]. refine (same_data_trans _ _ _ (same_data_insert h1 z xz (with_parent (Some y) xz) Hz1 eq_refl) _).
    - eapply same_data_insert; [rewrite list_lookup_insert_ne by done; eauto|]. done. }
  assert (O2 : Hok h -> Hok h2).
  { intros HH. apply Hok_insert; [apply Hok_insert|]; auto.
    - apply height_ok_parent; eapply O1; eauto.
    - apply height_ok_left. eapply O1; eauto. }
  rewrite Hly.
  destruct (set_right_spec h2 z _ b (Some y) Hz2 Rb2 ltac:(set_solver) Nb) as (h3 & E3 & Hz3 & Rb3 & F3 & D3 & O3).
  erewrite bind_val by eauto.
  assert (Rc3 : rep_ctx h3 C (Some y)) by (eapply rep_ctx_frame; [|exact Rc2]; intros; apply F3; set_solver).
  assert (Ra3 : rep h3 (Some z) a).
  { eapply rep_frame; [|exact Ra]. intros n Hn. rewrite F3 by set_solver. apply F2; set_solver. }
  assert (Rcc3 : rep h3 (Some y) c).
  { eapply rep_frame; [|exact Rcc]. intros n Hn. rewrite F3 by set_solver. apply F2; set_solver. }
  assert (Rz3 : rep h3 (Some y) (T a z b)).
  { split; [|split]; auto. eexists. split; [exact Hz3|]. simpl. auto. }
  assert (Ry3 : rep h3 (ctx_parent C) (T (T a z b) y c)).
  { split; [|split; [exact Rz3|exact Rcc3]]. exists (with_left (Some z) (with_parent (ctx_parent C) xy)).
    rewrite F3 by set_solver. simpl. auto. }
  assert (Nz' : NoDup (inord (T a z b))).
  { simpl. apply NoDup_app. split; auto. split; [set_solver|]. apply NoDup_cons. set_solver. }
  assert (Ny' : NoDup (inord (T (T a z b) y c))).
  { simpl. apply NoDup_app. split; [exact Nz'|]. split; [set_solver|]. apply NoDup_cons. set_solver. }
  destruct (update_height_spec _ _ _ _ _ Rz3 Nz') as (h4 & E4 & S4 & O4).
  erewrite bind_val by eauto.
  destruct (update_height_spec _ _ _ _ _ (rep_hsim _ _ _ _ S4 Ry3) Ny') as (h5 & E5 & S5 & O5).
  erewrite bind_val by eauto.
  pose proof (hsim_trans _ _ _ S4 S5) as S45.
  eexists. split; [reflexivity|]. split; [eapply rep_ctx_hsim; eauto|].
  split; [eapply rep_hsim; eauto|]. split; [|split; [auto|]].
  { eapply same_data_trans; [exact D2|]. eapply same_data_trans; [exact D3|]. by apply hsim_same_data. }
  assert (K3 : forall m, cached h3 m = cached h m).
  { intros m. rewrite (cached_set_right _ _ _ _ _ m E3), (cached_set_left _ _ _ _ _ m E2), (cached_reattach _ _ _ _ _ _ m E1). done. }
  destruct (update_height_exact _ _ _ _ _ _ _ Rz3 Nz' E4) as (_ & F4 & C4).
  destruct (update_height_exact _ _ _ _ _ _ _ (rep_hsim _ _ _ _ S4 Ry3) Ny' E5) as (_ & F5 & C5).
  split.
  - intros m Hm. simpl in Hm. rewrite F5, F4, K3; simpl; try done; clear - Hm; set_solver.
  - intros Ca Cb Cc. apply C5.
    + apply C4; (eapply cok_frame; [|done]); intros q Hq; apply K3.
    + eapply cok_frame; [|exact Cc]. intros q Hq. rewrite F4, K3; [done|..]; clear - Nzr Nyc Nbc Nar Hq; set_solver.
Qed.
Lemma rotate_left_spec h C a z b y c :
  rep_ctx h C (Some z) -> rep h (ctx_parent C) (T a z (T b y c)) ->
  NoDup (ctx_ids C ++ inord (T a z (T b y c))) ->
  exists h', rotate_left z h = Val (h', y) /\ rep_ctx h' C (Some y) /\
    rep h' (ctx_parent C) (T (T a z b) y c) /\ same_data h h' /\ (Hok h -> b <> E -> Hok h').
Proof.
  intros H1 H2 H3. destruct (rotate_left_spec_exact h C a z b y c H1 H2 H3) as (h' & ? & ? & ? & ? & ? & _). exists h'. auto 10.
Qed.

Lemma rotate_right_spec_exact h C a z b y c :
  rep_ctx h C (Some z) -> rep h (ctx_parent C) (T (T a y b) z c) ->
  NoDup (ctx_ids C ++ inord (T (T a y b) z c)) ->
  exists h', rotate_right z h = Val (h', y) /\ rep_ctx h' C (Some y) /\
    rep h' (ctx_parent C) (T a y (T b z c)) /\ same_data h h' /\ (Hok h -> b <> E -> Hok h') /\
    (forall m, m ∉ inord (T (T a y b) z c) -> cached h' m = cached h m) /\ (cok h a -> cok h b -> cok h c -> cok h' (T a y (T b z c))).
Proof.
  intros Rc ((xz & Hz & Hpz & Hlz & Hrz) & ((xy & Hy & Hpy & Hly & Hry) & Ra & Rb) & Rcc) Hnd.
  apply NoDup_app_inv in Hnd as (NC & NT & ND).
  apply NoDup_T in NT as (NTl & Nc & Nzl & Nzc & Nlc).
  pose proof NTl as NTl'. apply NoDup_T in NTl' as (Na & Nb & Nya & Nyb & Nab).
  simpl in Nzl, Nlc, ND. simpl in Hlz.
  assert (Hzy : z <> y) by set_solver.
  assert (NzC : z ∉ ctx_ids C) by set_solver. assert (NyC : y ∉ ctx_ids C) by set_solver.
  unfold rotate_right.
  erewrite bind_val by (apply get_val; eauto). rewrite Hlz.
  erewrite bind_val by apply need_val.
  erewrite bind_val by (apply get_val; eauto). rewrite Hpz.
  destruct (reattach_spec h C z y xz xy Rc Hz Hpz Hy NzC NyC Hzy NC) as (h1 & E1 & Rc1 & Hy1 & F1 & D1 & O1).
  erewrite bind_val by eauto.
  assert (Hz1 : h1 !! z = Some xz) by (rewrite F1; auto).
  pose proof (set_right_val h1 y _ (Some z) z _ Hy1 Hz1 (not_eq_sym Hzy) eq_refl) as E2.
  erewrite bind_val by exact E2.
  set (h2 := <[y:=_]> _) in *.
  assert (Hz2 : h2 !! z = Some (with_parent (Some y) xz)).
  { unfold h2. rewrite list_lookup_insert_ne by done. rewrite list_lookup_insert; auto. eapply lookup_lt_Some; eauto. }
  assert (Hy2 : h2 !! y = Some (with_right (Some z) (with_parent (ctx_parent C) xy))).
  { unfold h2. rewrite list_lookup_insert; auto. rewrite insert_length. eapply lookup_lt_Some; eauto. }
  assert (F2 : forall n, n <> y -> n <> z -> n ∉ ctx_ids C -> h2 !! n = h !! n).
  { intros. unfold h2. rewrite !list_lookup_insert_ne by done. auto. }
  assert (Rc2 : rep_ctx h2 C (Some y)) by (apply rep_ctx_insert; auto; apply rep_ctx_insert; auto).
  assert (Rb2 : rep h2 (Some y) b) by (eapply rep_frame; [|exact Rb]; intros; apply F2; set_solver).
  assert (D2 : same_data h h2).
  { eapply same_data_trans; [exact D1|]. refine (same_data_trans _ _ _ (same_data_insert h1 z xz (with_parent (Some y) xz) Hz1 eq_refl) _).
    - eapply same_data_insert; [rewrite list_lookup_insert_ne by done; eauto|]. done. }
  assert (O2 : Hok h -> Hok h2).
  { intros HH. apply Hok_insert; [apply Hok_insert|]; auto.
    - apply height_ok_parent; eapply O1; eauto.
    - apply height_ok_right. eapply O1; eauto. }
  rewrite Hry.
  destruct (set_left_spec h2 z _ b (Some y) Hz2 Rb2 ltac:(set_solver) Nb) as (h3 & E3 & Hz3 & Rb3 & F3 & D3 & O3).
  erewrite bind_val by eauto.
  assert (Rc3 : rep_ctx h3 C (Some y)) by (eapply rep_ctx_frame; [|exact Rc2]; intros; apply F3; set_solver).
  assert (Ra3 : rep h3 (Some y) a).
  { eapply rep_frame; [|exact Ra]. intros n Hn. rewrite F3 by set_solver. apply F2; set_solver. }
  assert (Rcc3 : rep h3 (Some z) c).
  { eapply rep_frame; [|exact Rcc]. intros n Hn. rewrite F3 by set_solver. apply F2; set_solver. }
  assert (Rz3 : rep h3 (Some y) (T b z c)).
  { split; [|split]; auto. eexists. split; [exact Hz3|]. simpl. auto. }
  assert (Ry3 : rep h3 (ctx_parent C) (T a y (T b z c))).
  { split; [|split; [exact Ra3|exact Rz3]]. exists (with_right (Some z) (with_parent (ctx_parent C) xy)).
    rewrite F3 by set_solver. simpl. auto. }
  assert (Nz' : NoDup (inord (T b z c))).
  { simpl. apply NoDup_app. split; auto. split; [set_solver|]. apply NoDup_cons. set_solver. }
  assert (Ny' : NoDup (inord (T a y (T b z c)))).
  { change (NoDup (inord a ++ y :: inord (T b z c))). apply NoDup_app. split; auto.
    split; [simpl; set_solver|]. apply NoDup_cons. split; [simpl; set_solver|exact Nz']. }
  destruct (update_height_spec _ _ _ _ _ Rz3 Nz') as (h4 & E4 & S4 & O4).
  erewrite bind_val by eauto.
  destruct (update_height_spec _ _ _ _ _ (rep_hsim _ _ _ _ S4 Ry3) Ny') as (h5 & E5 & S5 & O5).
  erewrite bind_val by eauto.
  pose proof (hsim_trans _ _ _ S4 S5) as S45.
  eexists. split; [reflexivity|]. split; [eapply rep_ctx_hsim; eauto|].
  split; [eapply rep_hsim; eauto|]. split; [|split; [auto|]].
  { eapply same_data_trans; [exact D2|]. eapply same_data_trans; [exact D3|]. by apply hsim_same_data. }
  assert (K3 : forall m, cached h3 m = cached h m).
  { intros m. rewrite (cached_set_left _ _ _ _ _ m E3), (cached_set_right _ _ _ _ _ m E2), (cached_reattach _ _ _ _ _ _ m E1). done. }
  destruct (update_height_exact _ _ _ _ _ _ _ Rz3 Nz' E4) as (_ & F4 & C4).
  destruct (update_height_exact _ _ _ _ _ _ _ (rep_hsim _ _ _ _ S4 Ry3) Ny' E5) as (_ & F5 & C5).
  split.
  - intros m Hm. simpl in Hm. rewrite F5, F4, K3; simpl; try done; clear - Hm; set_solver.
  - intros Ca Cb Cc. apply C5.
    + eapply cok_frame; [|exact Ca]. intros q Hq. rewrite F4, K3; [done|..]; clear - Nzl Nya Nab Nlc Hq; set_solver.
    + apply C4; (eapply cok_frame; [|done]); intros q Hq; apply K3.
Qed.
Lemma rotate_right_spec h C a z b y c :
  rep_ctx h C (Some z) -> rep h (ctx_parent C) (T (T a y b) z c) ->
  NoDup (ctx_ids C ++ inord (T (T a y b) z c)) ->
  exists h', rotate_right z h = Val (h', y) /\ rep_ctx h' C (Some y) /\
    rep h' (ctx_parent C) (T a y (T b z c)) /\ same_data h h' /\ (Hok h -> b <> E -> Hok h').
Proof.
  intros H1 H2 H3. destruct (rotate_right_spec_exact h C a z b y c H1 H2 H3) as (h' & ? & ? & ? & ? & ? & _). exists h'. auto 10.
Qed.
End Rep.

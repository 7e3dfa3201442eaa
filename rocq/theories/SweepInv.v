(* SweepInv.v -- the invariant of the sweep, for any arithmetic. *)
From stdpp Require Import base list sets.
From Coq Require Import ZArith Lia.
From Verif Require Import Arith Geom Monad Tree Heapq State Sweep HeapqProofs TreeProofs TreeOps TreeSearch Beach SweepBase Dcel.
Local Open Scope monad_scope.

Section Inv.
Context (A : Arith).
Notation St := (state A).
Implicit Types s : St.

(* breakpoint b ends a half-edge that is still growing *)
Definition open_bp s (b : nat) : Prop :=
  exists x e h, s_bps s !! b = Some x /\ b_edge x = Some e /\ s_hedges s !! e = Some h /\ h_origin h = OBp b.

(* a valid event k in the queue: its node is an arc with two neighbours on the beach line,
   the three arcs have the event's sites, and the arc points back to the event *)
Definition live s (L : list nat) (k : nat) (e : cevent A) : Prop :=
  exists L1 l b1 b2 m L2 a b c ar x,
    L = (L1 ++ [l; b1]) ++ c_node e :: b2 :: m :: L2 /\
    site A s l = Some a /\ site A s b1 = None /\ site A s (c_node e) = Some b /\ site A s b2 = None /\ site A s m = Some c /\
    c_triple e = (a, b, c) /\ is_circle_of A s (a, b, c) e /\
    arcid A s (c_node e) = Some ar /\ s_arcs s !! ar = Some x /\ a_cev x = Some k.

(* the item of a site *)
Definition site_item s (p : nat) (i : qitem A) : Prop := i_ev i = ESite p /\ pxy A s p = Some (i_x i, i_y i).

Definition queue_ok s (L : list nat) (done : list nat) : Prop :=
  forall i, i ∈ s_queue s ->
    match i_ev i with
    | ESite p => p ∉ done /\ site_item s p i /\ (forall q j, q ∈ done -> site_item s q j -> event_lt A i j = false)
    | ECircle k => exists e, s_cevs s !! k = Some e /\ i = cev_item A k e /\ (c_valid e = true -> live s L k e)
    end.

Record Inv s (t : tree) (done : list nat) (k0 : nat) : Prop := {
  i_rep : rep (s_nodes s) None t;
  i_root : s_root s = rootid t;
  i_full : full t;
  i_nodup : NoDup (inord t);
  i_hok : Hok (s_nodes s);
  i_chain : chain (site A s) (label A s) (inord t);
  i_arcs : forall n m a, n ∈ inord t -> m ∈ inord t -> arcid A s n = Some a -> arcid A s m = Some a -> n = m;
  i_bps : forall n m b, n ∈ inord t -> m ∈ inord t -> bpid A s n = Some b -> bpid A s m = Some b -> n = m;
  i_nc : noncross (sites (site A s) (inord t));
  i_sites : forall p, p ∈ sites (site A s) (inord t) -> p ∈ done;
  i_pts : forall p, p ∈ done -> exists xy, pxy A s p = Some xy;
  i_open : forall n b, n ∈ inord t -> bpid A s n = Some b -> open_bp s b;
  i_dcel : dcel A (pxy A s) (s_hedges s) (s_bps s) (s_verts s) (s_vset s) (s_edges s) k0;
  i_heap : is_heap (event_lt A) (s_queue s);
  i_qnodup : NoDup (i_ev <$> s_queue s);
  i_queue : queue_ok s (inord t) done;
  i_cev : forall n a x k, n ∈ inord t -> arcid A s n = Some a -> s_arcs s !! a = Some x -> a_cev x = Some k ->
    exists e, s_cevs s !! k = Some e /\ c_node e = n;
  i_count : length (s_edges s) + 1 = length done + length (s_vset s);
  i_vlist : s_vlist s = false;
  i_first : 2 <= length done -> forall p, p ∈ done -> exists x e, s_points s !! p = Some x /\ p_first x = Some e;
  i_pfirst : forall p x e, s_points s !! p = Some x -> p_first x = Some e -> exists h, s_hedges s !! e = Some h /\ h_inc h = Some p;
  i_done : NoDup done;
  i_names : forall k p, done !! k = Some p -> exists x, s_points s !! p = Some x /\ p_name x = Some k
}.

(* ---------- consequences ---------- *)
Lemma in_sites s L n p : n ∈ L -> site A s n = Some p -> p ∈ sites (site A s) L.
Proof. intros H1 H2. unfold sites. apply elem_of_list_omap. eauto. Qed.

Lemma inv_site s t done k0 n p : Inv s t done k0 -> n ∈ inord t -> site A s n = Some p -> p ∈ done /\ exists xy, pxy A s p = Some xy.
Proof.
  intros H Hn Hs. assert (p ∈ done) as Hp. { eapply i_sites; eauto using in_sites. }
  split; [done|]. eapply i_pts; eauto.
Qed.
Lemma inv_node s t done k0 n : Inv s t done k0 -> n ∈ inord t ->
  (exists p, site A s n = Some p /\ p ∈ done /\ exists xy, pxy A s p = Some xy) \/
  (exists p q, site A s n = None /\ label A s n = Some (p, q) /\ p <> q /\ p ∈ done /\ q ∈ done /\
     (exists xy, pxy A s p = Some xy) /\ (exists xy, pxy A s q = Some xy)).
Proof.
  intros H Hn. destruct (site A s n) as [p|] eqn:Hs.
  - left. exists p. split; [done|]. eapply inv_site; eauto.
  - right. apply elem_of_list_split in Hn as (l1 & l2 & E).
    destruct (chain_odd_label _ _ _ n l1 l2 (i_chain _ _ _ _ H) E Hs) as (pre & l & m & suf & p & q & -> & -> & Hl & Hm & HL & Hpq).
    assert (p ∈ done /\ exists xy, pxy A s p = Some xy) as [? ?].
    { eapply (inv_site s t done k0 l); eauto. rewrite E. clear. set_solver. }
    assert (q ∈ done /\ exists xy, pxy A s q = Some xy) as [? ?].
    { eapply (inv_site s t done k0 m); eauto. rewrite E. clear. set_solver. }
    exists p, q. auto 10.
Qed.
Lemma inv_leaf s t done k0 n : Inv s t done k0 -> n ∈ leaves t ->
  exists C j, t = plug C (leaf n) /\ full_ctx C /\ site A s n = Some j /\ inord t = ctx_l C ++ n :: ctx_r C.
Proof.
  intros H Hn. destruct (leaf_plug t n (i_full _ _ _ _ H) Hn) as (C & E & FC).
  assert (EI : inord t = ctx_l C ++ n :: ctx_r C) by (rewrite E, inord_plug; done).
  destruct (chain_even_site _ _ _ n _ _ (i_chain _ _ _ _ H) EI) as [j Hj].
  { by apply full_ctx_even. }
  exists C, j. auto.
Qed.
(* a node with a site is a leaf of the tree *)
Lemma inv_site_leaf s t done k0 n p : Inv s t done k0 -> n ∈ inord t -> site A s n = Some p ->
  exists C, t = plug C (leaf n) /\ full_ctx C /\ inord t = ctx_l C ++ n :: ctx_r C.
Proof.
  intros H Hn Hs. apply elem_of_list_split in Hn as (l1 & l2 & E).
  pose proof (chain_even _ _ (site_label A s) _ n l1 l2 p (i_chain _ _ _ _ H) E Hs) as Hev.
  destruct (even_leaf t n l1 l2 (i_full _ _ _ _ H) (i_nodup _ _ _ _ H) E Hev) as (C & E1 & FC & <- & <-).
  exists C. auto.
Qed.

(* ---------- exceptions of keys ---------- *)
Lemma lift_div_exn (o : option (D A)) e : lift_div A o = Raise e -> arith_exn e.
Proof. destruct o; [done|]. intros [= <-]. unfold arith_exn. auto. Qed.
Lemma lift_sqrt_exn (o : option (D A)) e : lift_sqrt A o = Raise e -> arith_exn e.
Proof. destruct o; [done|]. intros [= <-]. unfold arith_exn. auto. Qed.
Lemma rbind_exn {X Y} (m : result X) (k : X -> result Y) e :
  (forall e, m = Raise e -> arith_exn e) -> (forall x e, k x = Raise e -> arith_exn e) -> rbind m k = Raise e -> arith_exn e.
Proof. intros H1 H2. destruct m; simpl; [apply H2|]. intros [= ->]. by apply H1. Qed.
Lemma breakpoint_y_exn p x l e : breakpoint_y A p x l = Raise e -> arith_exn e.
Proof.
  unfold breakpoint_y. destruct p as [a b]. destruct (deqb _ _ _); [done|].
  apply rbind_exn; [apply lift_div_exn|done].
Qed.
Lemma get_intersection_exn i j l m e : get_intersection A i j l m = Raise e -> arith_exn e.
Proof.
  unfold get_intersection. destruct (deqb A (snd i) (snd j)).
  - apply rbind_exn; [apply lift_div_exn|]. intros x e'. destruct (dltb _ _ _); [done|].
    apply rbind_exn; [apply breakpoint_y_exn|done].
  - destruct (deqb _ _ _); [apply rbind_exn; [apply breakpoint_y_exn|done]|].
    destruct (deqb _ _ _); [apply rbind_exn; [apply breakpoint_y_exn|done]|].
    apply rbind_exn; [|intros; eapply rbind_exn; [| |eassumption]; [apply breakpoint_y_exn|done]].
    unfold breakpoint_x_general. destruct i, j. intros e'. apply rbind_exn; [apply lift_sqrt_exn|].
    intros ? ?. apply lift_div_exn.
Qed.
Lemma bp_key_exn s l i j e : (exists xy, pxy A s i = Some xy) -> (exists xy, pxy A s j = Some xy) ->
  bp_key A s l i j = Raise e -> arith_exn e.
Proof.
  unfold pxy, bp_key, lookup_r. intros [xi Hi] [xj Hj].
  destruct (s_points s !! i); [|done]. destruct (s_points s !! j); [|done]. simpl.
  apply rbind_exn; [apply get_intersection_exn|done].
Qed.

(* keys of the nodes of the tree; [s'] has the same arcs (at least), breakpoints and points *)
Lemma node_key_exn s t done k0 l n x e : Inv s t done k0 -> n ∈ inord t -> s_nodes s !! n = Some x ->
  node_key A s l x = Raise e -> arith_exn e.
Proof.
  intros H Hn Hx. destruct (inv_node _ _ _ _ _ H Hn) as [(p & Hs & _ & xy & Hxy)|(p & q & Hs & HL & _ & _ & _ & Hp & Hq)].
  - apply site_inv in Hs as (nd & a & y & H1 & H2 & _ & H4 & H5). assert (nd = x) as -> by congruence.
    unfold node_key, lookup_r. rewrite H2, H4. simpl. rewrite H5. unfold pxy in Hxy.
    destruct (s_points s !! p); done.
  - apply label_inv in HL as (nd & b & y & H1 & H2 & _ & H4 & [= H5 H6]). assert (nd = x) as -> by congruence.
    unfold node_key, lookup_r. rewrite H2, H4. simpl. rewrite <- H5, <- H6. by apply bp_key_exn.
Qed.
Lemma node_key_label s l n x p q : label A s n = Some (p, q) -> s_nodes s !! n = Some x -> node_key A s l x = bp_key A s l p q.
Proof.
  intros (nd & b & y & H1 & H2 & _ & H4 & [= H5 H6])%label_inv Hx. assert (nd = x) as -> by congruence.
  unfold node_key, lookup_r. rewrite H2, H4. simpl. by rewrite H5, H6.
Qed.
End Inv.

(* TreeSearch.v -- what the searches of tree/tree.py find. *)
From stdpp Require Import base list sets.
From Coq Require Import ZArith Lia.
From Verif Require Import Arith Monad Tree TreeProofs TreeOps.
Local Open Scope monad_scope.

Section Search.
Context {X : Type}.
Notation heap := (list (node X)).
Implicit Types h : heap.

(* the identifiers of the nodes with children, from left to right *)
Fixpoint internals (t : tree) : list nat :=
  match t with
  | E => []
  | T E _ E => []
  | T l n r => internals l ++ n :: internals r
  end.

Lemma full_node l n r : full (T l n r) -> (l = E /\ r = E) \/ (full l /\ full r /\ l <> E /\ r <> E).
Proof. simpl. intros [?|[? ?]]; [auto|]. right. split_and!; auto using full_nonempty. Qed.

Lemma leaves_T l n r : l <> E -> leaves (T l n r) = leaves l ++ leaves r.
Proof. destruct l; done. Qed.
Lemma internals_T l n r : l <> E -> internals (T l n r) = internals l ++ n :: internals r.
Proof. destruct l; done. Qed.

Lemma is_leaf_spec h p l n r : rep h p (T l n r) ->
  is_leaf n h = Val (h, match l, r with E, E => true | _, _ => false end).
Proof.
  intros ((x & Hx & Hp & Hl & Hr) & _). unfold is_leaf.
  erewrite bind_val by (apply get_val; eauto). rewrite Hl, Hr. destruct l, r; done.
Qed.

Lemma get_leaves_fuel_spec fuel h p t n : rep h p t -> rootid t = Some n -> depth t <= fuel ->
  get_leaves_fuel fuel n h = Val (h, leaves t).
Proof.
  revert fuel p n. induction t as [|l IHl m r IHr]; intros fuel p n R Hr Hd; [done|].
  simpl in Hr. injection Hr as <-. destruct fuel; [simpl in Hd; lia|]. simpl in Hd.
  cbn [get_leaves_fuel]. erewrite bind_val by (eapply is_leaf_spec; eauto).
  destruct R as ((x & Hx & Hp & Hl & Hr) & Rl & Rr).
  assert (Hchild : forall q, q = l \/ q = r ->
    match rootid q with Some k => get_leaves_fuel fuel k | None => ret [] end h = Val (h, leaves q)).
  { intros q Hq. destruct q as [|q1 k q2]; [done|]. cbn [rootid].
    destruct Hq as [<- | <-]; [eapply IHl|eapply IHr]; eauto; lia. }
  assert (Hgen : bind (get m) (fun x => bind match n_left x with Some k => get_leaves_fuel fuel k | None => ret [] end
     (fun l0 => bind match n_right x with Some k => get_leaves_fuel fuel k | None => ret [] end
       (fun r0 => ret (l0 ++ r0)))) h = Val (h, leaves l ++ leaves r)).
  { erewrite bind_val by (apply get_val; eauto). rewrite Hl, Hr.
    erewrite bind_val by (apply Hchild; auto). erewrite bind_val by (apply Hchild; auto). done. }
  destruct l as [|l1 k1 l2], r as [|r1 k2 r2]; [done|..]; exact Hgen.
Qed.
Lemma get_leaves_spec h p t n : rep h p t -> rootid t = Some n -> NoDup (inord t) ->
  get_leaves n h = Val (h, leaves t).
Proof. intros R Hr Hnd. unfold get_leaves. eapply get_leaves_fuel_spec; eauto. pose proof (rep_depth _ _ _ R Hnd). lia. Qed.

Lemma last_leaf_in t n : full t -> last_leaf t n ∈ leaves t.
Proof.
  revert n. induction t as [|l _ m r IHr]; [done|]. intros n Hf. simpl last_leaf.
  destruct (full_node _ _ _ Hf) as [[-> ->]|(Fl & Fr & Nl & Nr)]; [simpl; set_solver|].
  rewrite leaves_T by done. set_solver.
Qed.
Lemma first_leaf_in t n : full t -> first_leaf t n ∈ leaves t.
Proof.
  revert n. induction t as [|l IHl m r _]; [done|]. intros n Hf. simpl first_leaf.
  destruct (full_node _ _ _ Hf) as [[-> ->]|(Fl & Fr & Nl & Nr)]; [simpl; set_solver|].
  rewrite leaves_T by done. set_solver.
Qed.

Section Key.
Context {K : Type} (key : node X -> result K) (lt eq : K -> K -> bool).

(* ---------- find_value ---------- *)
(* a search either raises one of the exceptions the keys raise, or is exhaustive for the
   matching nodes whose key is the query's; the order of the keys does not matter *)
Lemma find_value_fuel_spec (P : exn -> Prop) fuel h p t qkey (cmp : X -> bool) :
  rep h p t -> depth t < fuel ->
  (forall e, qkey = Raise e -> P e) ->
  (forall n x e, n ∈ inord t -> h !! n = Some x -> key x = Raise e -> P e) ->
  (forall n x k kx, n ∈ inord t -> h !! n = Some x -> cmp (n_data x) = true ->
     qkey = Val k -> key x = Val kx -> eq k kx = true) ->
  match find_value_fuel key lt eq fuel (rootid t) qkey cmp h with
  | Raise e => P e
  | Val (h', o) => h' = h /\
      match o with
      | Some m => m ∈ inord t /\ exists x, h !! m = Some x /\ cmp (n_data x) = true
      | None => forall m x, m ∈ inord t -> h !! m = Some x -> cmp (n_data x) = false
      end
  end.
Proof.
  intros R Hd HQ. revert p t R Hd.
  induction fuel as [|fuel IH]; intros p t R Hd HK HC; [lia|].
  cbn [find_value_fuel]. unfold bind at 1, lift at 1. destruct qkey as [k|e]; [|auto].
  destruct t as [|l n r]; [simpl; split; [done|]; set_solver|]. cbn [rootid].
  destruct R as ((x & Hx & Hp & Hl & Hr) & Rl & Rr). simpl in Hd.
  erewrite bind_val by (apply get_val; eauto).
  unfold bind at 1, lift at 1. destruct (key x) as [kx|e] eqn:Ek.
  2:{ eapply HK; eauto. simpl. set_solver. }
  assert (Hinl : forall m, m ∈ inord l -> m ∈ inord (T l n r)) by (simpl; set_solver).
  assert (Hinr : forall m, m ∈ inord r -> m ∈ inord (T l n r)) by (simpl; set_solver).
  assert (Hn : n ∈ inord (T l n r)) by (simpl; set_solver).
  assert (HL := IH (Some n) l Rl ltac:(lia) ltac:(eauto) ltac:(eauto)).
  assert (HR := IH (Some n) r Rr ltac:(lia) ltac:(eauto) ltac:(eauto)).
  rewrite <- Hl in HL. rewrite <- Hr in HR. clear IH.
  assert (Hcase : cmp (n_data x) = false ->
     (forall m y, m ∈ inord l -> h !! m = Some y -> cmp (n_data y) = false) ->
     (forall m y, m ∈ inord r -> h !! m = Some y -> cmp (n_data y) = false) ->
     forall m y, m ∈ inord (T l n r) -> h !! m = Some y -> cmp (n_data y) = false).
  { intros H1 H2 H3 m y Hm Hy. simpl in Hm. apply elem_of_app in Hm as [Hm|Hm]; [eauto|].
    apply elem_of_cons in Hm as [->|Hm]; [|eauto]. rewrite Hx in Hy. by injection Hy as <-. }
  destruct (eq k kx) eqn:Eq.
  - destruct (cmp (n_data x)) eqn:Ec.
    + split; [done|]. eauto.
    + unfold bind. destruct (find_value_fuel _ _ _ _ (n_left x) _ _ h) as [[h1 [m|]]|e]; [| |done].
      * destruct HL as [-> (Hm & y & Hy & Hc)]. split; [done|]. eauto.
      * destruct HL as [-> HL].
        destruct (find_value_fuel _ _ _ _ (n_right x) _ _ h) as [[h1 [m|]]|e]; [| |done].
        -- destruct HR as [-> (Hm & y & Hy & Hc)]. split; [done|]. eauto.
        -- destruct HR as [-> HR]. split; [done|]. by apply Hcase.
  - assert (Ec : cmp (n_data x) = false).
    { destruct (cmp (n_data x)) eqn:Ec; [|done]. specialize (HC n x k kx Hn Hx Ec eq_refl Ek). congruence. }
    destruct (lt k kx).
    + unfold bind. destruct (find_value_fuel _ _ _ _ (n_left x) _ _ h) as [[h1 [m|]]|e]; [| |done].
      * destruct HL as [-> (Hm & y & Hy & Hc)]. split; [done|]. eauto.
      * destruct HL as [-> HL].
        destruct (find_value_fuel _ _ _ _ (n_right x) _ _ h) as [[h1 [m|]]|e]; [| |done].
        -- destruct HR as [-> (Hm & y & Hy & Hc)]. split; [done|]. eauto.
        -- destruct HR as [-> HR]. split; [done|]. by apply Hcase.
    + unfold bind. destruct (find_value_fuel _ _ _ _ (n_right x) _ _ h) as [[h1 [m|]]|e]; [| |done].
      * destruct HR as [-> (Hm & y & Hy & Hc)]. split; [done|]. eauto.
      * destruct HR as [-> HR].
        destruct (find_value_fuel _ _ _ _ (n_left x) _ _ h) as [[h1 [m|]]|e]; [| |done].
        -- destruct HL as [-> (Hm & y & Hy & Hc)]. split; [done|]. eauto.
        -- destruct HL as [-> HL]. split; [done|]. by apply Hcase.
Qed.
Lemma find_value_spec (P : exn -> Prop) h p t qkey (cmp : X -> bool) :
  rep h p t -> NoDup (inord t) ->
  (forall e, qkey = Raise e -> P e) ->
  (forall n x e, n ∈ inord t -> h !! n = Some x -> key x = Raise e -> P e) ->
  (forall n x k kx, n ∈ inord t -> h !! n = Some x -> cmp (n_data x) = true ->
     qkey = Val k -> key x = Val kx -> eq k kx = true) ->
  match find_value key lt eq (rootid t) qkey cmp h with
  | Raise e => P e
  | Val (h', o) => h' = h /\
      match o with
      | Some m => m ∈ inord t /\ exists x, h !! m = Some x /\ cmp (n_data x) = true
      | None => forall m x, m ∈ inord t -> h !! m = Some x -> cmp (n_data x) = false
      end
  end.
Proof.
  intros R Hnd. unfold find_value. eapply find_value_fuel_spec; eauto.
  pose proof (rep_depth _ _ _ R Hnd). lia.
Qed.

(* ---------- find_leaf_node ---------- *)
(* the leaf found: at every node with children the search went left only for a key not
   above the node's, and right only for a key above (not equal to and not below) *)
Fixpoint found (h : heap) (k : K) (t : tree) (m : nat) : Prop :=
  match t with
  | E => False
  | T l n r =>
      (l = E /\ r = E /\ m = n) \/
      (l <> E /\ exists x kx, h !! n = Some x /\ key x = Val kx /\
        ((eq k kx = true /\ m = last_leaf l n) \/
         (eq k kx = false /\ lt k kx = true /\ found h k l m) \/
         (eq k kx = false /\ lt k kx = false /\ found h k r m)))
  end.

Lemma find_leaf_node_fuel_spec (P : exn -> Prop) fuel h p t k :
  rep h p t -> full t -> NoDup (inord t) -> depth t <= fuel ->
  (forall n x e, n ∈ inord t -> h !! n = Some x -> key x = Raise e -> P e) ->
  match find_leaf_node_fuel key lt eq fuel (rootid t) k h with
  | Raise e => P e
  | Val (h', o) => h' = h /\ exists m, o = Some m /\ found h k t m
  end.
Proof.
  revert p fuel. induction t as [|l IHl n r IHr]; intros p fuel R Hf Hnd Hd HK; [done|].
  assert (Hinl : forall m, m ∈ inord l -> m ∈ inord (T l n r)) by (clear; simpl; set_solver).
  assert (Hinr : forall m, m ∈ inord r -> m ∈ inord (T l n r)) by (clear; simpl; set_solver).
  assert (Hn : n ∈ inord (T l n r)) by (clear; simpl; set_solver).
  cbn [rootid]. destruct fuel; [simpl in Hd; lia|]. simpl in Hd.
  cbn [find_leaf_node_fuel]. erewrite bind_val by (eapply is_leaf_spec; eauto).
  destruct (full_node _ _ _ Hf) as [[-> ->]|(Fl & Fr & Nl & Nr)].
  { split; [done|]. exists n. split; [done|]. simpl. auto. }
  destruct R as ((x & Hx & Hp & Hl & Hr) & Rl & Rr).
  destruct (NoDup_T _ _ _ Hnd) as (N1 & N2 & _).
  assert (exists l1 nl l2, l = T l1 nl l2) as (l1 & nl & l2 & El) by (destruct l; eauto; done).
  replace (match l with E => match r with E => true | _ => false end | _ => false end) with false by (by rewrite El).
  erewrite bind_val by (apply get_val; eauto).
  unfold bind at 1, lift at 1. destruct (key x) as [kx|e] eqn:Ek.
  2:{ eapply HK; eauto. }
  destruct (eq k kx) eqn:Eq; [|destruct (lt k kx) eqn:Elt].
  - assert (Hrl : rootid l = Some nl) by (by rewrite El).
    rewrite Hl, Hrl.
    erewrite bind_val by (apply (maximum_spec h (Some n) l nl Rl Hrl N1)).
    replace (last_leaf l nl) with (last_leaf l n) by (by rewrite El).
    split; [done|]. eexists. split; [reflexivity|]. cbn [found]. right. split; [done|].
    exists x, kx. split; [done|]. split; [done|]. left. split; [done|]. done.
  - rewrite Hl. pose proof (IHl (Some n) fuel Rl Fl N1 ltac:(lia)) as HI.
    feed specialize HI. { eauto. }
    destruct (find_leaf_node_fuel _ _ _ _ _ _ _) as [[h1 o]|e]; [|done].
    destruct HI as [-> (m & -> & Hfd)]. split; [done|]. exists m. split; [done|]. cbn [found]. right.
    rewrite El in Hfd |- *. split; [done|]. exists x, kx. split; [done|]. split; [done|]. auto.
  - rewrite Hr. pose proof (IHr (Some n) fuel Rr Fr N2 ltac:(lia)) as HI.
    feed specialize HI. { eauto. }
    destruct (find_leaf_node_fuel _ _ _ _ _ _ _) as [[h1 o]|e]; [|done].
    destruct HI as [-> (m & -> & Hfd)]. split; [done|]. exists m. split; [done|]. cbn [found]. right.
    split; [done|]. exists x, kx. split; [done|]. split; [done|]. auto.
Qed.
Lemma find_leaf_node_spec (P : exn -> Prop) h p t k :
  rep h p t -> full t -> NoDup (inord t) ->
  (forall n x e, n ∈ inord t -> h !! n = Some x -> key x = Raise e -> P e) ->
  match find_leaf_node key lt eq (rootid t) k h with
  | Raise e => P e
  | Val (h', o) => h' = h /\ exists m, o = Some m /\ found h k t m
  end.
Proof.
  intros R Hf Hnd HK. unfold find_leaf_node. eapply find_leaf_node_fuel_spec; eauto.
  pose proof (rep_depth _ _ _ R Hnd). lia.
Qed.

Lemma found_leaf h k t m : full t -> found h k t m -> m ∈ leaves t.
Proof.
  induction t as [|l IHl n r IHr]; [done|]. intros Hf Hfd.
  destruct (full_node _ _ _ Hf) as [[-> ->]|(Fl & Fr & Nl & Nr)].
  - simpl in Hfd. destruct Hfd as [(_ & _ & ->)|[? _]]; [simpl; set_solver|done].
  - rewrite leaves_T by done. destruct Hfd as [(-> & _)|(_ & x & kx & _ & _ & [[_ ->]|[(_ & _ & H)|(_ & _ & H)]])]; [done|..].
    + pose proof (last_leaf_in l n Fl). set_solver.
    + specialize (IHl Fl H). set_solver.
    + specialize (IHr Fr H). set_solver.
Qed.

(* with keys increasing from left to right, the nodes before the found leaf have keys
   below k (or not above, if the order of the keys is not strict), those after keys not below k *)
Definition key_rel (h : heap) (R : K -> Prop) (n : nat) : Prop :=
  exists x kx, h !! n = Some x /\ key x = Val kx /\ R kx.

Definition keys_sorted (h : heap) (R : K -> K -> Prop) (t : tree) : Prop :=
  forall l1 a l2 b l3, internals t = l1 ++ a :: l2 ++ b :: l3 ->
    exists x kx y ky, h !! a = Some x /\ key x = Val kx /\ h !! b = Some y /\ key y = Val ky /\ R kx ky.

Lemma keys_sorted_l h R l n r : l <> E -> keys_sorted h R (T l n r) -> keys_sorted h R l.
Proof.
  intros Hl H l1 a l2 b l3 E0. apply (H l1 a l2 b (l3 ++ n :: internals r)).
  rewrite internals_T by done. rewrite E0. rewrite <- !app_assoc. simpl. rewrite <- !app_assoc. done.
Qed.
Lemma keys_sorted_r h R l n r : l <> E -> keys_sorted h R (T l n r) -> keys_sorted h R r.
Proof.
  intros Hl H l1 a l2 b l3 E0. apply (H (internals l ++ n :: l1) a l2 b l3).
  rewrite internals_T by done. rewrite E0. rewrite <- !app_assoc. done.
Qed.
Lemma keys_sorted_left h R l n r a : l <> E -> keys_sorted h R (T l n r) -> a ∈ internals l ->
  exists x kx y ky, h !! a = Some x /\ key x = Val kx /\ h !! n = Some y /\ key y = Val ky /\ R kx ky.
Proof.
  intros Hl H Ha. apply elem_of_list_split in Ha as (l1 & l2 & E0).
  apply (H l1 a l2 n (internals r)). rewrite internals_T by done. rewrite E0, <- app_assoc. done.
Qed.
Lemma keys_sorted_right h R l n r b : l <> E -> keys_sorted h R (T l n r) -> b ∈ internals r ->
  exists x kx y ky, h !! n = Some x /\ key x = Val kx /\ h !! b = Some y /\ key y = Val ky /\ R kx ky.
Proof.
  intros Hl H Ha. apply elem_of_list_split in Ha as (l1 & l2 & E0).
  apply (H (internals l) n l1 b l2). rewrite internals_T by done. rewrite E0. done.
Qed.

(* the nodes with children before and after a leaf *)
Fixpoint before (t : tree) (m : nat) : list nat :=
  match t with
  | E => []
  | T E _ E => []
  | T l n r => if decide (m ∈ leaves l) then before l m else internals l ++ n :: before r m
  end.
Fixpoint after (t : tree) (m : nat) : list nat :=
  match t with
  | E => []
  | T E _ E => []
  | T l n r => if decide (m ∈ leaves l) then after l m ++ n :: internals r else after r m
  end.
Lemma before_T l n r m : l <> E ->
  before (T l n r) m = if decide (m ∈ leaves l) then before l m else internals l ++ n :: before r m.
Proof. destruct l; done. Qed.
Lemma after_T l n r m : l <> E ->
  after (T l n r) m = if decide (m ∈ leaves l) then after l m ++ n :: internals r else after r m.
Proof. destruct l; done. Qed.

Lemma leaves_inord t m : m ∈ leaves t -> m ∈ inord t.
Proof.
  induction t as [|l IHl n r IHr]; [done|]. destruct l as [|l1 x l2].
  - destruct r; [done|]. intros H. simpl inord. apply elem_of_cons. right. apply IHr. exact H.
  - rewrite leaves_T by done. intros H. apply elem_of_app in H. cbn [inord]. set_solver.
Qed.
Lemma internals_inord t m : m ∈ internals t -> m ∈ inord t.
Proof.
  induction t as [|l IHl n r IHr]; [done|]. destruct l as [|l1 x l2].
  - destruct r as [|r1 y r2]; [simpl; set_solver|]. cbn [internals app]. intros H. cbn [inord app].
    apply elem_of_cons in H as [->|H]; [set_solver|]. apply elem_of_cons. right. apply IHr. exact H.
  - rewrite internals_T by done. intros H. apply elem_of_app in H as [H|H]; cbn [inord]; [set_solver|].
    apply elem_of_cons in H as [->|H]; set_solver.
Qed.
Lemma before_last l d : full l -> NoDup (inord l) -> before l (last_leaf l d) = internals l /\ after l (last_leaf l d) = [].
Proof.
  revert d. induction l as [|l1 _ m l2 IH]; [done|]. intros d Hf Hnd.
  destruct (full_node _ _ _ Hf) as [[-> ->]|(Fl & Fr & Nl & Nr)]; [done|].
  destruct (NoDup_T _ _ _ Hnd) as (N1 & N2 & _ & _ & Nd).
  cbn [last_leaf]. rewrite before_T, after_T, internals_T by done.
  rewrite decide_False. 2:{ intros H. apply leaves_inord in H. apply (Nd _ H), leaves_inord, last_leaf_in. done. }
  destruct (IH m Fr N2) as [-> ->]. rewrite decide_False; [done|].
  intros H. apply leaves_inord in H. apply (Nd _ H), leaves_inord, last_leaf_in. done.
Qed.

Lemma found_brackets h (R : K -> K -> Prop) k t m :
  full t -> NoDup (inord t) -> keys_sorted h R t ->
  (forall a b, eq k b = true -> R a b -> R a k) ->
  (forall a b, eq k b = false -> lt k b = false -> R a b -> R a k) ->
  (forall b, eq k b = false -> lt k b = false -> R b k) ->
  (forall a b, (eq k a = true \/ lt k a = true) -> R a b -> (eq k b = true \/ lt k b = true)) ->
  found h k t m ->
  Forall (key_rel h (fun kx => R kx k)) (before t m) /\
  Forall (key_rel h (fun kx => eq k kx = true \/ lt k kx = true)) (after t m).
Proof.
  intros Hf Hnd Hs R1 R2 R3 R4. induction t as [|l IHl n r IHr]; [done|]. intros Hfd.
  destruct (full_node _ _ _ Hf) as [[-> ->]|(Fl & Fr & Nl & Nr)]; [split; constructor|].
  destruct (NoDup_T _ _ _ Hnd) as (N1 & N2 & _ & _ & Nd).
  pose proof (keys_sorted_l _ _ _ _ _ Nl Hs) as Sl. pose proof (keys_sorted_r _ _ _ _ _ Nl Hs) as Sr.
  rewrite before_T, after_T by done.
  destruct Hfd as [(-> & _)|(_ & x & kx & Hx & Hkx & Hc)]; [done|].
  assert (HA : (eq k kx = true \/ lt k kx = true) -> Forall (key_rel h (fun kx => eq k kx = true \/ lt k kx = true)) (n :: internals r)).
  { intros Hk. constructor; [exists x, kx; auto|]. apply Forall_forall. intros b Hb.
    destruct (keys_sorted_right _ _ _ _ _ b Nl Hs Hb) as (x' & kx' & y & ky & Hx' & Hkx' & Hy & Hky & HR).
    rewrite Hx in Hx'. injection Hx' as <-. rewrite Hkx in Hkx'. injection Hkx' as <-.
    exists y, ky. eauto. }
  destruct Hc as [[He ->]|[(He & Hlt & Hfd)|(He & Hlt & Hfd)]].
  - rewrite !decide_True by (by apply last_leaf_in).
    destruct (before_last l n Fl N1) as [-> ->]. split; [|apply HA; auto].
    apply Forall_forall. intros a Ha.
    destruct (keys_sorted_left _ _ _ _ _ a Nl Hs Ha) as (y & ky & x' & kx' & Hy & Hky & Hx' & Hkx' & HR).
    rewrite Hx in Hx'. injection Hx' as <-. rewrite Hkx in Hkx'. injection Hkx' as <-.
    exists y, ky. eauto.
  - rewrite !decide_True by (eapply found_leaf; eauto).
    destruct (IHl Fl N1 Sl Hfd) as [B1 A1]. split; [done|]. apply Forall_app; auto.
  - assert (Hm : m ∈ leaves r) by (eapply found_leaf; eauto).
    assert (m ∉ leaves l). { intros H. apply leaves_inord in H. apply leaves_inord in Hm. by apply (Nd _ H). }
    rewrite !decide_False by done.
    destruct (IHr Fr N2 Sr Hfd) as [B1 A1]. split; [|done]. apply Forall_app. split.
    + apply Forall_forall. intros a Ha.
      destruct (keys_sorted_left _ _ _ _ _ a Nl Hs Ha) as (y & ky & x' & kx' & Hy & Hky & Hx' & Hkx' & HR).
      rewrite Hx in Hx'. injection Hx' as <-. rewrite Hkx in Hkx'. injection Hkx' as <-.
      exists y, ky. eauto.
    + constructor; [|done]. exists x, kx. auto.
Qed.

(* the node right after the found leaf was compared with k, whatever the order of the keys *)
Lemma found_next h k t m : full t -> NoDup (inord t) -> found h k t m ->
  match after t m with
  | [] => True
  | b :: _ => key_rel h (fun kx => eq k kx = true \/ lt k kx = true) b
  end.
Proof.
  intros Hf Hnd. induction t as [|l IHl n r IHr]; [done|]. intros Hfd.
  destruct (full_node _ _ _ Hf) as [[-> ->]|(Fl & Fr & Nl & Nr)]; [done|].
  destruct (NoDup_T _ _ _ Hnd) as (N1 & N2 & _ & _ & Nd).
  rewrite after_T by done.
  destruct Hfd as [(-> & _)|(_ & x & kx & Hx & Hkx & Hc)]; [done|].
  destruct Hc as [[He ->]|[(He & Hlt & Hfd)|(He & Hlt & Hfd)]].
  - rewrite decide_True by (by apply last_leaf_in). destruct (before_last l n Fl N1) as [_ ->].
    simpl. exists x, kx. auto.
  - rewrite decide_True by (eapply found_leaf; eauto). specialize (IHl Fl N1 Hfd).
    destruct (after l m) as [|b q]; [|done]. simpl. exists x, kx. auto.
  - assert (Hm : m ∈ leaves r) by (eapply found_leaf; eauto).
    rewrite decide_False; [apply IHr; auto|].
    intros H. apply leaves_inord in H. apply leaves_inord in Hm. by apply (Nd _ H).
Qed.
End Key.
End Search.

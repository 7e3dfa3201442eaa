(* FindFacts.v -- Tree.find and Tree.get_leaves. *)
From stdpp Require Import base list sets sorting.
From Coq Require Import ZArith Lia.
From Verif Require Import Arith Monad Tree TreeProofs TreeOps TreeAvl TreeInsert TreeDelete NodeFacts.
Local Open Scope monad_scope.

Section Find.
Context {X K : Type} (key : node X -> result K) (lt eq : K -> K -> bool) (SW : StrictWeak lt).
Context (eq_same : forall a b, eq a b = true <-> same_key lt a b).
Notation heap := (list (node X)).
Implicit Types h : heap.

Lemma find_fuel_spec t : forall fuel h p ks k,
  rep h p t -> keys_in key h t ks -> increasing lt ks -> depth t <= fuel ->
  exists o, find_fuel key lt eq fuel (rootid t) k h = Val (h, o) /\
    match o with
    | Some n => n ∈ inord t /\ exists k', kof key h n k' /\ same_key lt k k'
    | None => forall k', k' ∈ ks -> ~ same_key lt k k'
    end.
Proof.
  induction t as [|l IHl n r IHr]; intros fuel h p ks k R HK HS Hd.
  - exists None. split; [by destruct fuel|]. inversion HK; subst. intros k'. set_solver.
  - destruct R as ((x & Hx & _ & Hl & Hr) & Rl & Rr). simpl in Hd. destruct fuel as [|fuel]; [lia|].
    unfold keys_in in HK. cbn [inord] in HK. apply Forall2_app_inv_l in HK as (k1 & k2 & K1 & HK & ->).
    apply Forall2_cons_inv_l in HK as (kn & k3 & (x' & Hx' & Kx) & K2 & ->). rewrite Hx in Hx'. injection Hx' as <-.
    apply sorted_app in HS as (S1 & S2 & S3). apply StronglySorted_inv in S2 as [S2 S4]. rewrite Forall_forall in S4.
    cbn [find_fuel rootid]. erewrite bind_val by (by apply get_val).
    erewrite bind_val by (unfold lift; rewrite Kx; reflexivity).
    destruct (eq k kn) eqn:Eq.
    { exists (Some n). split; [done|]. split; [apply in_root|]. exists kn. split; [by exists x|]. by apply eq_same. }
    assert (Hne : ~ same_key lt k kn) by (rewrite <- eq_same; congruence).
    destruct (lt k kn) eqn:Lt.
    + rewrite Hl. destruct (IHl fuel h _ k1 k Rl K1 S1 ltac:(lia)) as (o & E1 & Ho). exists o. split; [done|].
      destruct o as [m|]; [destruct Ho as [Hm ?]; split; [by apply in_l|done]|].
      intros k' [Hk'|[->|Hk']%elem_of_cons]%elem_of_app; [by apply Ho|done|].
      intros [Q1 Q2]. specialize (S4 k' Hk').
      assert (lt kn k' = false) as N2; [|congruence]. apply (sw_neg _ SW kn k k'); [by apply (sw_asym _ SW)|done].
    + rewrite Hr. destruct (IHr fuel h _ k3 k Rr K2 S2 ltac:(lia)) as (o & E1 & Ho). exists o. split; [done|].
      destruct o as [m|]; [destruct Ho as [Hm ?]; split; [by apply in_r|done]|].
      intros k' [Hk'|[->|Hk']%elem_of_cons]%elem_of_app; [|done|by apply Ho].
      intros [Q1 Q2]. pose proof (S3 k' kn Hk' ltac:(set_solver)) as N. 
      assert (lt k' kn = false) as N2; [|congruence]. by apply (sw_neg _ SW k' k kn).
Qed.

Lemma find_spec h root t ks k : rep h None t -> root = rootid t -> NoDup (inord t) -> keys_in key h t ks -> increasing lt ks ->
  exists o, find key lt eq root k h = Val (h, o) /\
    match o with
    | Some n => n ∈ inord t /\ exists x k', h !! n = Some x /\ key x = Val k' /\ same_key lt k k'
    | None => forall k', k' ∈ ks -> ~ same_key lt k k'
    end.
Proof.
  intros R -> N HK HS. destruct (find_fuel_spec t (S (length h)) h None ks k R HK HS) as (o & E & Ho).
  { pose proof (rep_depth _ _ _ R N). lia. }
  exists o. split; [exact E|]. destruct o; [|done]. destruct Ho as (Hn & k' & (x & Hx & Kx) & Hs). eauto 10.
Qed.
End Find.

Section Leaves.
Context {X : Type}.
(* the nodes without children, from left to right *)
Fixpoint childless (t : tree) : list nat :=
  match t with E => [] | T E n E => [n] | T l n r => childless l ++ childless r end.

Lemma get_leaves_fuel_spec t : forall fuel (h : list (node X)) p l n r, t = T l n r ->
  rep h p t -> depth t <= fuel -> get_leaves_fuel fuel n h = Val (h, childless t).
Proof.
  induction t as [|tl IHl tn tr IHr]; intros fuel h p l n r HT R Hd; [done|]. injection HT as -> -> ->.
  destruct R as ((x & Hx & _ & Hl & Hr) & Rl & Rr). simpl in Hd. destruct fuel as [|fuel]; [lia|].
  cbn [get_leaves_fuel]. unfold is_leaf.
  erewrite bind_val; [|erewrite bind_val by (by apply get_val); reflexivity].
  rewrite Hl, Hr.
  assert (HL : forall c, (l = E \/ r = E -> True) -> (c = l \/ c = r) -> forall q, rep h q c -> depth c <= fuel ->
    (forall f (h : list (node X)) p l n r, c = T l n r -> rep h p c -> depth c <= f -> get_leaves_fuel f n h = Val (h, childless c)) ->
    match rootid c with Some k => get_leaves_fuel fuel k | None => ret [] end h = Val (h, childless c)).
  { intros c _ _ q Rc Dc IH. destruct c as [|cl cn cr]; [done|]. simpl rootid. by eapply IH. }
  assert (E2 : bind (get n) (fun x0 => bind (match n_left x0 with Some k => get_leaves_fuel fuel k | None => ret [] end)
     (fun l0 => bind (match n_right x0 with Some k => get_leaves_fuel fuel k | None => ret [] end) (fun r0 => ret (l0 ++ r0)))) h = Val (h, childless l ++ childless r)).
  { erewrite bind_val by (by apply get_val). rewrite Hl, Hr.
    erewrite bind_val by (eapply HL; eauto; lia). erewrite bind_val by (eapply HL; eauto; lia). done. }
  destruct l as [|ll ln lr]; [destruct r as [|rl rn rr]|]; [done|exact E2|exact E2].
Qed.
Lemma get_leaves_spec (h : list (node X)) t n : rep h None t -> rootid t = Some n -> NoDup (inord t) ->
  get_leaves n h = Val (h, childless t).
Proof.
  intros R Hr N. destruct t as [|l m r]; [done|]. injection Hr as ->. unfold get_leaves.
  eapply get_leaves_fuel_spec; [done|exact R|]. pose proof (rep_depth _ _ _ R N). lia.
Qed.
End Leaves.

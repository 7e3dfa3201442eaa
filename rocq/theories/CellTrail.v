(* CellTrail.v -- what finish_edges does to the links between half-edges: a new link skips only
   deleted half-edges. *)
From stdpp Require Import base list sets.
From Coq Require Import ZArith Lia.
From Verif Require Import Arith Geom Monad Tree Heapq State Sweep Finish SweepBase Spec CleanUp Reuse.
Local Open Scope monad_scope.

Section Trail.
Context (A : Arith).
Notation St := (state A).
Implicit Types s : St.
Context (N T I : nat -> option nat) (D : nat -> Prop) (First : nat -> Prop).

(* along N from e to f, with half-edges in D in between *)
Inductive hop : nat -> nat -> Prop :=
| hop_one e f : N e = Some f -> hop e f
| hop_more e d f : N e = Some d -> D d -> hop d f -> hop e f.
Lemma hop_trans e d f : hop e d -> D d -> hop d f -> hop e f.
Proof. intros H1 H2 H3. induction H1 as [e d H|e x d H HD _ IH]; [by eapply hop_more|]. eapply hop_more; [exact H|done|]. auto. Qed.

Record trail s : Prop := {
  tr_next : forall e h f, s_hedges s !! e = Some h -> h_next h = Some f -> hop e f;
  tr_prev : forall f g e, s_hedges s !! f = Some g -> h_prev g = Some e -> hop e f;
  tr_same : forall e h, s_hedges s !! e = Some h -> h_twin h = T e /\ h_inc h = I e;
  tr_none : forall p x, s_points s !! p = Some x -> p_first x = None -> First p \/ exists d, D d /\ I d = Some p
}.
Lemma trail_only s s' : s_hedges s' = s_hedges s -> s_points s' = s_points s -> trail s -> trail s'.
Proof. intros H1 H2 [X1 X2 X3 X4]. split; rewrite ?H1, ?H2; done. Qed.
Notation kp := (keeps trail).
Ltac ks := repeat first
  [ apply keeps_ret | apply keeps_raise | apply keeps_need | apply keeps_deref | apply keeps_read | apply keeps_lift
  | apply keeps_write; intros ?; apply trail_only; done
  | apply keeps_zoom; intros ? ?; apply trail_only; done
  | apply keeps_bind; [|intros ?]
  | match goal with |- keeps _ (match ?x with _ => _ end) => destruct x end ].
Lemma kt_get {X} (m : M (list hedge) X) : (forall l l' x, m l = Val (l', x) -> l' = l) -> kp (hedges_do m).
Proof. intros H s s' x HP. unfold hedges_do, zoom. destruct (m (s_hedges s)) as [[l y]|] eqn:E; [|done]. apply H in E as ->. intros [= <- _]. revert HP. by apply trail_only. Qed.
Lemma kt_get_at e : kp (hedges_do (get_at e)).
Proof. apply kt_get. intros l l' x. unfold get_at. destruct (l !! e); [|done]. by intros [= <- _]. Qed.
Lemma kt_pget_at e : kp (points_do (get_at e)).
Proof. intros s s' x HP. unfold points_do, zoom, get_at. destruct (s_points s !! e); [|done]. intros [= <- _]. revert HP. by apply trail_only. Qed.
Ltac kk := repeat first [ apply kt_get_at | apply kt_pget_at | ks ].
Lemma kt_get_origin e o : kp (get_origin A e o).
Proof. unfold get_origin, point_xy, verts_do, bps_do. repeat first [ apply kt_get_at | apply kt_pget_at | ks]. Qed.
Lemma kt_twin e : kp (twin_of e).
Proof. unfold twin_of. kk. Qed.
Lemma trail_update s i f x : s_hedges s !! i = Some x -> h_next (f x) = h_next x -> h_prev (f x) = h_prev x -> h_twin (f x) = h_twin x -> h_inc (f x) = h_inc x ->
  trail s -> trail (set_hedges (<[i := f x]> (s_hedges s)) s).
Proof.
  intros Hi E1 E2 E3 E4 [X1 X2 X3 X4].
  assert (L : forall e h, (<[i := f x]> (s_hedges s)) !! e = Some h -> exists h0, s_hedges s !! e = Some h0 /\ h_next h = h_next h0 /\ h_prev h = h_prev h0 /\ h_twin h = h_twin h0 /\ h_inc h = h_inc h0).
  { intros e h [(<- & <- & _)|[_ H]]%list_lookup_insert_Some; [exists x; done|]. by exists h. }
  split; cbn [set_hedges s_hedges s_points].
  - intros e h g (h0 & L1 & L2 & _)%L H. rewrite L2 in H. eauto.
  - intros e h g (h0 & L1 & _ & L2 & _)%L H. rewrite L2 in H. eauto.
  - intros e h (h0 & L1 & _ & _ & -> & ->)%L. eauto.
  - done.
Qed.
Lemma kt_finish_edge poly e : kp (finish_edge A poly e).
Proof.
  unfold finish_edge. apply keeps_bind; [apply kt_get_origin|]. intros ?. apply keeps_bind; [apply kt_twin|]. intros ?. apply keeps_bind; [apply kt_get_origin|]. intros ?.
  apply keeps_bind; [ks|]. intros ?. apply keeps_bind; [unfold verts_do; ks|]. intros v. apply keeps_bind; [|intros ?; ks].
  intros s1 s1' x9 HP. unfold hedges_do, zoom. destruct (upd_at e _ _) as [[l y]|] eqn:E; [|done]. apply upd_inv in E as (h & E1 & ->). intros [= <- _]. by apply trail_update.
Qed.
Lemma kt_unfinished poly e : kp (origin_unfinished A poly e).
Proof. unfold origin_unfinished. apply keeps_bind; [apply kt_get_origin|]. intros [[x []]|]; ks. Qed.
Lemma kt_has_origin e : kp (has_origin A e).
Proof. unfold has_origin. apply keeps_bind; [apply kt_get_origin|]. intros ?; ks. Qed.

(* e deleted: the link from its predecessor now passes over it *)
Lemma trail_delete s e s' u : D e -> trail s -> delete_edge A e s = Val (s', u) -> trail s'.
Proof.
  intros He HP H. unfold delete_edge in H. apply bind_inv in H as (s0 & h & (-> & Hh)%get_hedge_inv & H).
  apply bind_inv in H as (s1 & [] & H1 & H).
  assert (P1 : trail s1 /\ s_hedges s1 = s_hedges s).
  { destruct (h_origin h) as [b|v]; [by injection H1 as <-|]. unfold conn_remove in H1. apply bind_inv in H1 as (s2 & w & (-> & Hw)%get_vert_inv & H1).
    destruct (list_remove e (v_conn w)) as [l|]; [|done]. unfold verts_do, zoom in H1. destruct (upd_at v _ _) as [[l' y]|]; [|done]. injection H1 as <-. split; [|done]. revert HP. by apply trail_only. }
  destruct P1 as [P1 Q1]. apply bind_inv in H as (s2 & [] & H2 & H).
  assert (P2 : trail s2 /\ s_points s2 = s_points s1).
  { destruct (h_prev h) as [y|] eqn:Ey; [|by injection H2 as <-]. unfold set_next, hedges_do, zoom in H2.
    destruct (bind _ _ (s_hedges s1)) as [[l []]|] eqn:Eb; [|done]. injection H2 as <-. split; [|done].
    apply bind_inv in Eb as (l1 & [] & B1 & B2). apply upd_inv in B2 as (hy & B2 & ->).
    assert (Hnx : forall n, h_next h = Some n -> hop e n) by (intros n Hn; by eapply (tr_next _ HP)).
    assert (Hpv : hop y e) by (by eapply (tr_prev _ HP)).
    assert (L1 : forall x k, l1 !! x = Some k -> exists k0, s_hedges s1 !! x = Some k0 /\ h_next k = h_next k0 /\ h_twin k = h_twin k0 /\ h_inc k = h_inc k0 /\ (h_prev k = h_prev k0 \/ h_next h = Some x /\ h_prev k = Some y)).
    { destruct (h_next h) as [n|]; [|injection B1 as <-; intros x k Hk; exists k; auto 10]. apply upd_inv in B1 as (hn & B1 & ->).
      intros x k [(<- & <- & _)|[_ Hk]]%list_lookup_insert_Some; [exists hn; cbn; auto 10|exists k; auto 10]. }
    assert (L2 : forall x k, (<[y:=with_h_next (h_next h) hy]> l1) !! x = Some k -> exists k0, s_hedges s1 !! x = Some k0 /\ h_twin k = h_twin k0 /\ h_inc k = h_inc k0 /\
       (h_next k = h_next k0 \/ x = y /\ h_next k = h_next h) /\ (h_prev k = h_prev k0 \/ h_next h = Some x /\ h_prev k = Some y)).
    { intros x k [(<- & <- & _)|[_ Hk]]%list_lookup_insert_Some.
      - destruct (L1 y hy B2) as (k0 & K1 & K2 & K3 & K4 & K5). exists k0. cbn. auto 10.
      - destruct (L1 x k Hk) as (k0 & K1 & K2 & K3 & K4 & K5). exists k0. auto 10. }
    split; cbn [set_hedges s_hedges s_points].
    - intros x k f (k0 & K1 & _ & _ & [K2|[-> K2]] & _)%L2 Hf; rewrite K2 in Hf; [by eapply (tr_next _ P1)|]. eapply hop_trans; eauto.
    - intros x k f (k0 & K1 & _ & _ & _ & [K2|[K3 K2]])%L2 Hf; rewrite K2 in Hf; [by eapply (tr_prev _ P1)|]. injection Hf as <-. eapply hop_trans; eauto.
    - intros x k (k0 & K1 & -> & -> & _)%L2. by eapply (tr_same _ P1).
    - apply (tr_none _ P1). }
  destruct P2 as [P2 Q2]. destruct (h_inc h) as [p|] eqn:Ep; [|by injection H as <-].
  apply bind_inv in H as (s3 & xp & (-> & Hxp)%get_point_inv & H). case_bool_decide as Efi; [|by injection H as <-].
  apply bind_inv in H as (s4 & h' & (-> & Hh')%get_hedge_inv & H). apply bind_inv in H as (s5 & [] & H5 & H).
  assert (s5 = s2) as ->.
  { destruct (h_next h') as [n|]; [|by injection H5 as <-]. apply bind_inv in H5 as (s6 & hn & (-> & Hn)%get_hedge_inv & H5). case_bool_decide; [|done]. by injection H5 as <-. }
  unfold points_do, zoom in H. destruct (upd_at p _ _) as [[l y]|] eqn:Eu; [|done]. apply upd_inv in Eu as (x0 & Eu & ->). injection H as <-.
  destruct P2 as [X1 X2 X3 X4]. split; cbn [set_points s_hedges s_points]; [done..|].
  intros q x [(<- & <- & _)|[_ Hk]]%list_lookup_insert_Some HN; [|eauto]. right. exists e. split; [done|]. destruct (X3 e h' Hh') as [_ <-].
  destruct (tr_same _ HP e h Hh) as [_ Z]. destruct (X3 e h' Hh') as [_ Z']. congruence.
Qed.
Lemma trail_clip poly s e s' (k : bool) : trail s -> clip_edge A poly e s = Val (s', k) -> (k = false -> D e /\ forall t, T e = Some t -> D t) -> trail s'.
Proof.
  intros HP H HD. unfold clip_edge in H. apply bind_inv in H as (s1 & b1 & H1 & H). apply (kt_unfinished poly e) in H1; [|done].
  apply bind_inv in H as (s2 & [] & H2 & H). assert (P2 : trail s2). { destruct b1; [by apply (kt_finish_edge poly e) in H2|by injection H2 as <-]. }
  apply bind_inv in H as (s3 & t & H3 & H). pose proof H3 as H3'. apply twin_inv in H3' as [-> Ht]. clear H3.
  assert (HT : T e = Some t). { unfold twin, half in Ht. destruct (s_hedges s2 !! e) as [h|] eqn:Eh; [|done]. simpl in Ht. destruct (tr_same _ P2 e h Eh) as [<- _]. done. }
  apply bind_inv in H as (s4 & b2 & H4 & H). apply (kt_unfinished poly t) in H4; [|done].
  apply bind_inv in H as (s5 & [] & H5 & H). assert (P5 : trail s5). { destruct b2; [by apply (kt_finish_edge poly t) in H5|by injection H5 as <-]. }
  apply bind_inv in H as (s6 & o1 & H6 & H). apply (kt_has_origin e) in H6; [|done]. apply bind_inv in H as (s7 & o2 & H7 & H). apply (kt_has_origin t) in H7; [|done].
  destruct (o1 && o2); [by injection H as <- _|]. apply bind_inv in H as (s8 & [] & H8 & H). apply bind_inv in H as (s9 & [] & H9 & H). apply bind_inv in H as (s10 & [] & H10 & H).
  injection H as -> <-. destruct (HD eq_refl) as [D1 D2]. apply (trail_delete s7 e) in H8; [|done..]. apply (trail_delete s8 t) in H9; [|auto|done].
  injection H10 as <-. revert H9. by apply trail_only.
Qed.
Lemma finish_edges_sub poly es : forall s s' r, finish_edges A poly es s = Val (s', r) -> forall e, e ∈ r -> e ∈ es.
Proof.
  induction es as [|x es IH]; intros s s' r H; cbn [finish_edges] in H; [by injection H as _ <-|].
  apply bind_inv in H as (s1 & k & H1 & H). apply bind_inv in H as (s2 & r1 & H2 & H). injection H as <- <-. intros e He. apply elem_of_cons.
  destruct k; [apply elem_of_cons in He as [->|He]; [by left|]|]; right; by eapply IH.
Qed.
Lemma trail_finish poly es : forall s s' r, NoDup es -> trail s -> finish_edges A poly es s = Val (s', r) ->
  (forall e, e ∈ es -> e ∉ r -> D e /\ forall t, T e = Some t -> D t) -> trail s'.
Proof.
  induction es as [|e es IH]; intros s s' r HN HP H HD; cbn [finish_edges] in H; [by injection H as <- _|].
  apply NoDup_cons in HN as [N1 N2]. apply bind_inv in H as (s1 & k & H1 & H). apply bind_inv in H as (s2 & r1 & H2 & H). injection H as -> <-.
  pose proof (finish_edges_sub poly es _ _ _ H2) as HS. apply (IH s1 s' r1); [done| |done|].
  - apply (trail_clip poly s e s1 k HP H1). intros ->. apply HD; [by left|]. intros He. by apply N1, HS.
  - intros x Hx Hr. apply HD; [by right|]. destruct k; [|done]. intros [->|?]%elem_of_cons; [by apply N1|done].
Qed.
End Trail.

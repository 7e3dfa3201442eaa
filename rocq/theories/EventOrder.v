(* EventOrder.v -- Event.__lt__ (events/event.py:12-20) is a strict weak order whenever the
   comparison of numbers is one. *)
From stdpp Require Import base list.
From Verif Require Import Arith Geom Monad Tree Heapq State HeapqProofs.

Section Order.
Context (A : Arith) (TO : TotalOrder A).

Lemma d_asym a b : dltb A a b = true -> dltb A b a = false.
Proof.
  intros H. destruct (dltb A b a) eqn:E; [|done]. pose proof (to_trans _ TO _ _ _ H E) as HH.
  by rewrite (to_irrefl _ TO) in HH.
Qed.
Lemma d_eq_iff a b : deqb A a b = true <-> dltb A a b = false /\ dltb A b a = false.
Proof. rewrite (to_eqb _ TO), andb_true_iff, !negb_true_iff. done. Qed.
Lemma d_eq_refl a : deqb A a a = true.
Proof. apply d_eq_iff. by rewrite (to_irrefl _ TO). Qed.
Lemma d_eq_sym a b : deqb A a b = deqb A b a.
Proof. rewrite !(to_eqb _ TO). apply andb_comm. Qed.
Lemma d_le_trans a b c : dltb A b a = false -> dltb A c b = false -> dltb A c a = false.
Proof.
  intros H1 H2. destruct (dltb A c a) eqn:E; [|done]. destruct (to_cotrans _ TO _ _ b E); congruence.
Qed.
Lemma d_lt_le_trans a b c : dltb A a b = true -> dltb A c b = false -> dltb A a c = true.
Proof. intros H1 H2. destruct (to_cotrans _ TO _ _ c H1); congruence. Qed.
Lemma d_le_lt_trans a b c : dltb A b a = false -> dltb A b c = true -> dltb A a c = true.
Proof. intros H1 H2. destruct (to_cotrans _ TO _ _ a H2); congruence. Qed.
Lemma d_eq_ltl a b c : deqb A a b = true -> dltb A a c = dltb A b c.
Proof.
  intros [H1 H2]%d_eq_iff. destruct (dltb A a c) eqn:E1, (dltb A b c) eqn:E2; try done.
  - rewrite (d_le_lt_trans b a c) in E2; done.
  - rewrite (d_le_lt_trans a b c) in E1; done.
Qed.
Lemma d_eq_ltr a b c : deqb A a b = true -> dltb A c a = dltb A c b.
Proof.
  intros [H1 H2]%d_eq_iff. destruct (dltb A c a) eqn:E1, (dltb A c b) eqn:E2; try done.
  - rewrite (d_lt_le_trans c a b) in E2; done.
  - rewrite (d_lt_le_trans c b a) in E1; done.
Qed.
Lemma d_eq_trans a b c : deqb A a b = true -> deqb A b c = true -> deqb A a c = true.
Proof. intros H1 H2%d_eq_iff. apply d_eq_iff. rewrite (d_eq_ltl _ _ _ H1), (d_eq_ltr _ _ _ H1). done. Qed.
Lemma d_eq_l a b c : deqb A a b = true -> deqb A a c = deqb A b c.
Proof. intros H. rewrite !(to_eqb _ TO), (d_eq_ltl _ _ c H), (d_eq_ltr _ _ c H). done. Qed.

(* the order in words: lexicographic on (larger y, smaller x, circle before site) *)
Lemma event_lt_spec e f : event_lt A e f = true <->
  dltb A (i_y f) (i_y e) = true \/
  (deqb A (i_y e) (i_y f) = true /\ (dltb A (i_x e) (i_x f) = true \/
     (deqb A (i_x e) (i_x f) = true /\ is_circle (i_ev e) = true /\ is_circle (i_ev f) = false))).
Proof.
  unfold event_lt. destruct (deqb A (i_y e) (i_y f)) eqn:EY; simpl.
  - pose proof (proj1 (d_eq_iff _ _) EY) as [H1 H2]. rewrite H2.
    destruct (deqb A (i_x e) (i_x f)) eqn:EX; simpl.
    + pose proof (proj1 (d_eq_iff _ _) EX) as [H3 H4]. rewrite H3.
      destruct (is_circle (i_ev e)), (is_circle (i_ev f)); simpl; intuition congruence.
    + intuition congruence.
  - intuition congruence.
Qed.

Theorem event_swo : StrictWeakOrder (event_lt A).
Proof.
  constructor.
  - intros e. unfold event_lt. rewrite !d_eq_refl. simpl. by destruct (is_circle (i_ev e)).
  - intros e f g. rewrite !event_lt_spec.
    intros [H1|[H1 H2]] [G1|[G1 G2]].
    + left. eapply to_trans; eauto.
    + left. by rewrite <- (d_eq_ltl _ _ _ G1).
    + left. by rewrite (d_eq_ltr _ _ _ H1).
    + right. split; [by eapply d_eq_trans|].
      destruct H2 as [H2|(H2 & H3 & H4)], G2 as [G2|(G2 & G3 & G4)].
      * left. eapply to_trans; eauto.
      * left. by rewrite <- (d_eq_ltr _ _ _ G2).
      * left. by rewrite (d_eq_ltl _ _ _ H2).
      * congruence.
  - intros e f g. rewrite !event_lt_spec.
    intros [H1|[H1 H2]].
    + destruct (to_cotrans _ TO _ _ (i_y g) H1) as [G|G]; auto.
    + destruct (dltb A (i_y g) (i_y e)) eqn:E1; [auto|].
      destruct (dltb A (i_y e) (i_y g)) eqn:E2.
      { right. left. rewrite <- (d_eq_ltl _ _ _ H1). done. }
      assert (E3 : deqb A (i_y e) (i_y g) = true) by (apply d_eq_iff; done).
      assert (E4 : deqb A (i_y g) (i_y f) = true) by (rewrite <- (d_eq_l _ _ _ E3); done).
      destruct H2 as [H2|(H2 & H3 & H4)].
      * destruct (to_cotrans _ TO _ _ (i_x g) H2) as [G|G]; auto.
      * destruct (dltb A (i_x e) (i_x g)) eqn:F1; [auto|].
        destruct (dltb A (i_x g) (i_x e)) eqn:F2.
        { right. right. split; [done|]. left. rewrite <- (d_eq_ltr _ _ _ H2). done. }
        assert (F3 : deqb A (i_x e) (i_x g) = true) by (apply d_eq_iff; done).
        assert (F4 : deqb A (i_x g) (i_x f) = true) by (rewrite <- (d_eq_l _ _ _ F3); done).
        destruct (is_circle (i_ev g)) eqn:EG; [right; right; auto 10|left; right; auto 10].
Qed.
End Order.

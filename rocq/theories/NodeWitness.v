(* NodeWitness.v -- reading the status tree of a concrete state, for the refutations in
   PropNodes.v. *)
From stdpp Require Import base list sets.
From Coq Require Import ZArith Lia.
From Verif Require Import Arith DecArith Geom Monad Tree Heapq State Sweep TreeProofs TreeAvl NodeFacts Spec Witness SweepFacts.

Section Read.
Context {X : Type}.
Implicit Types h : list (node X).
Fixpoint shape (fuel : nat) h (o : option nat) : tree :=
  match fuel, o with
  | S fuel, Some n => match h !! n with Some x => T (shape fuel h (n_left x)) n (shape fuel h (n_right x)) | None => E end
  | _, _ => E
  end.
Lemma shape_rep h p t fuel : rep h p t -> depth t <= fuel -> shape fuel h (rootid t) = t.
Proof.
  revert h p fuel. induction t as [|l IHl n r IHr]; intros h p fuel; [by destruct fuel|].
  intros ((x & Hx & _ & Hl & Hr) & Rl & Rr) Hd. simpl in Hd. destruct fuel as [|fuel]; [lia|]. simpl. rewrite Hx, Hl, Hr.
  erewrite IHl, IHr; eauto; lia.
Qed.
Fixpoint balancedb (t : tree) : bool :=
  match t with
  | E => true
  | T l _ r => (depth l <=? S (depth r)) && (depth r <=? S (depth l)) && balancedb l && balancedb r
  end.
Lemma balancedb_avl t : balancedb t = false -> ~ balanced t.
Proof.
  rewrite <- avl_balanced. induction t as [|l IHl n r IHr]; [done|]. cbn [balancedb avl].
  rewrite !andb_false_iff, !Nat.leb_gt. intros [[[H|H]|H]|H] (B1 & B2 & B3 & B4); try lia; [by apply IHl|by apply IHr].
Qed.
Fixpoint rightb h (t : tree) : bool :=
  match t with
  | E => true
  | T l n r => match h !! n with
      | Some x => match n_height x with Some k => k =? depth (T l n r) | None => true end
      | None => true end && rightb h l && rightb h r
  end.
Lemma rightb_right h t : rightb h t = false -> ~ heights_right h t.
Proof.
  rewrite <- cok_right. induction t as [|l IHl n r IHr]; [done|]. cbn [rightb cok].
  rewrite !andb_false_iff. intros [[H|H]|H] (B1 & B2 & B3); [|by apply IHl|by apply IHr].
  unfold cached in B1. destruct (h !! n) as [x|]; [|done]. destruct (n_height x) as [k|] eqn:Ek; [|done].
  rewrite (B1 k) in H by (simpl; done). by rewrite Nat.eqb_refl in H.
Qed.
End Read.

Lemma subtree_plug s t : subtree s t -> exists C, t = plug C s.
Proof.
  intros H. enough (forall D, exists C, plug D t = plug C s) as Q by (exact (Q Top)).
  induction H as [|l n r _ IH|l n r _ IH]; intros D; [by exists D|..].
  - exact (IH (CL D n r)).
  - exact (IH (CR l n D)).
Qed.
Lemma subtree_trans s t u : subtree s t -> subtree t u -> subtree s u.
Proof. intros H1 H2. induction H2; [done|by apply sub_left|by apply sub_right]. Qed.
Lemma plug_subtree C s : subtree s (plug C s).
Proof.
  revert s. induction C as [|C IH n r|l n C IH]; intros s; simpl; [apply sub_here|..]; (eapply subtree_trans; [|apply IH]).
  - apply sub_left, sub_here.
  - apply sub_right, sub_here.
Qed.
Section Check.
Context (A : Arith).
Definition tree_at (pts corners : list (pt A)) (k : nat) (test : list (node ndata) -> tree -> bool) : bool :=
  match at_step A pts corners k with
  | Some (s, _, _) => negb (test (s_nodes s) (shape (length (s_nodes s)) (s_nodes s) (s_root s)))
  | None => false
  end.
Lemma tree_at_runs pts corners k test : lawful A pts -> tree_at pts corners k test = true ->
  exists s idx hist t, runs A pts corners s idx hist /\ rep (s_nodes s) None t /\ s_root s = rootid t /\ NoDup (inord t) /\
    test (s_nodes s) t = false.
Proof.
  intros (TO & MO & CD). unfold tree_at. destruct (at_step A pts corners k) as [[[s idx] hist]|] eqn:E; [|done].
  apply at_step_runs in E. intros H. destruct (runs_beach A pts corners TO MO CD s idx hist E) as (L & (t & R & Hr & Hnd & _) & _).
  exists s, idx, hist, t. split_and!; auto. rewrite Hr in H. rewrite (shape_rep _ None t) in H; auto.
  - by apply negb_true_iff in H.
  - by eapply rep_depth.
Qed.
End Check.

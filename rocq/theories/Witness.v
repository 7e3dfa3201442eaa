(* Witness.v -- concrete runs in decimal arithmetic, used to show that the hypotheses of the
   property theorems can be met. *)
From stdpp Require Import base list.
From Coq Require Import ZArith.
From Verif Require Import Arith DecArith Geom Monad Tree Heapq State Sweep HeapqProofs EventOrder TreeProofs SweepBase SweepLoop Spec SweepFacts DecLaws.

Section Drive.
Context (A : Arith).
(* the first k iterations of the loop, with the handled events *)
Fixpoint drive (k : nat) (x : state A * nat * list (qitem A)) : option (state A * nat * list (qitem A)) :=
  match k with
  | O => Some x
  | S k =>
      match drive k x with
      | Some (s, idx, hist) =>
          match queue_get A s with
          | Val (s1, Some i) =>
              match step A i idx s1 with
              | Val (s2, idx') => Some (s2, idx', if ignored A s i then hist else hist ++ [i])
              | Raise _ => None
              end
          | _ => None
          end
      | None => None
      end
  end.
Lemma drive_runs pts corners k s idx hist s' idx' hist' : runs A pts corners s idx hist ->
  drive k (s, idx, hist) = Some (s', idx', hist') -> runs A pts corners s' idx' hist'.
Proof.
  intros HR. revert s' idx' hist'. induction k as [|k IH]; simpl; intros s' idx' hist'; [by intros [= <- <- <-]|].
  destruct (drive k (s, idx, hist)) as [[[s0 idx0] hist0]|]; [|done].
  destruct (queue_get A s0) as [[s1 [i|]]|] eqn:Hg; [|done|done].
  destruct (step A i idx0 s1) as [[s2 idx2]|] eqn:Hst; [|done]. intros [= <- <- <-].
  eapply runs_step; eauto.
Qed.
Definition start (pts corners : list (pt A)) : option (state A * nat * list (qitem A)) :=
  match (bind (new_points A pts) (fun ps => initialize A ps)) (init_state A corners) with Val (s, _) => Some (s, 0, []) | Raise _ => None end.
(* the state after k iterations and the next popped event *)
Definition at_step (pts corners : list (pt A)) (k : nat) : option (state A * nat * list (qitem A)) :=
  match start pts corners with Some x => drive k x | None => None end.
Lemma at_step_runs pts corners k s idx hist : at_step pts corners k = Some (s, idx, hist) -> runs A pts corners s idx hist.
Proof.
  unfold at_step, start. destruct (bind _ _ _) as [[s0 []]|] eqn:E; [|done]. intros H.
  eapply drive_runs; [|exact H]. by apply runs_start.
Qed.

(* runs of exactly k iterations with the given numbers of vertices and edges *)
Definition ends (pts corners : list (pt A)) (k nv ne nh : nat) : bool :=
  match at_step pts corners k with
  | Some (s, idx, hist) =>
      match s_queue s with [] => true | _ => false end && (length (s_vset s) =? nv) && (length (s_edges s) =? ne) && (length hist =? nh)
  | None => false
  end.
Lemma ends_swept pts corners k nv ne nh : ends pts corners k nv ne nh = true ->
  exists s idx hist, swept A pts corners s idx hist /\ length (s_vset s) = nv /\ length (s_edges s) = ne /\ length hist = nh.
Proof.
  unfold ends. destruct (at_step pts corners k) as [[[s idx] hist]|] eqn:E; [|done].
  apply at_step_runs in E. rewrite !andb_true_iff, !Nat.eqb_eq. intros (((H1 & H2) & H3) & H5). exists s, idx, hist.
  split; [split; [done|]; by destruct (s_queue s)|]. done.
Qed.

(* after k iterations the next event is a valid circle event, which is handled *)
Definition circle_next (pts corners : list (pt A)) (k : nat) : bool :=
  match at_step pts corners k with
  | Some (s, idx, hist) =>
      match queue_get A s with
      | Val (s1, Some i) =>
          match i_ev i with
          | ECircle c => match s_cevs s !! c with Some e => c_valid e | None => false end &&
              match step A i idx s1 with Val _ => true | _ => false end
          | ESite _ => false
          end
      | _ => false
      end
  | None => false
  end.
Lemma circle_next_step pts corners n : circle_next pts corners n = true ->
  exists s idx hist s1 i k e s2 idx', runs A pts corners s idx hist /\
  queue_get A s = Val (s1, Some i) /\ i_ev i = ECircle k /\ s_cevs s !! k = Some e /\ c_valid e = true /\ step A i idx s1 = Val (s2, idx').
Proof.
  unfold circle_next. destruct (at_step pts corners n) as [[[s idx] hist]|] eqn:E; [|done].
  apply at_step_runs in E. destruct (queue_get A s) as [[s1 [i|]]|] eqn:Eg; [|done|done].
  destruct (i_ev i) as [|k] eqn:Ei; [done|]. destruct (s_cevs s !! k) as [e|] eqn:Ee; [|done].
  intros H. apply andb_true_iff in H as [Hv Hs]. destruct (step A i idx s1) as [[s2 idx']|] eqn:Est; [|done].
  exists s, idx, hist, s1, i, k, e, s2, idx'. done.
Qed.

(* after k iterations with at least one handled event, the next event is a site event *)
Definition site_next (pts corners : list (pt A)) (k : nat) : bool :=
  match at_step pts corners k with
  | Some (s, idx, hist) =>
      negb (length hist =? 0) &&
      match queue_get A s with
      | Val (s1, Some i) =>
          match i_ev i with
          | ESite p => match step A i idx s1 with Val _ => true | _ => false end
          | ECircle _ => false
          end
      | _ => false
      end
  | None => false
  end.
Lemma site_next_step pts corners n : site_next pts corners n = true ->
  exists s idx hist s1 i p s2 idx', runs A pts corners s idx hist /\ hist <> [] /\
  queue_get A s = Val (s1, Some i) /\ i_ev i = ESite p /\ step A i idx s1 = Val (s2, idx').
Proof.
  unfold site_next. destruct (at_step pts corners n) as [[[s idx] hist]|] eqn:E; [|done].
  apply at_step_runs in E. intros [Hh H]%andb_true_iff.
  destruct (queue_get A s) as [[s1 [i|]]|] eqn:Eg; [|done|done].
  destruct (i_ev i) as [p|] eqn:Ei; [|done]. destruct (step A i idx s1) as [[s2 idx']|] eqn:Est; [|done].
  exists s, idx, hist, s1, i, p, s2, idx'. split; [done|]. split; [|done]. by intros ->.
Qed.
End Drive.

Definition z (x : Z) : dec := mkdec x 0.
(* three sites and a square *)
Definition pts3 : list (pt DecArith) := [(z 0, z 4); (z 3, z 0); (z (-3), z 0)]%Z.
Definition box : list (pt DecArith) := [(z (-9), z (-9)); (z (-9), z 9); (z 9, z 9); (z 9, z (-9))]%Z.

Lemma pts3_mid : MidOK DecArith (fst <$> pts3).
Proof.
  apply (DecArith_mid 0). intros x Hx. simpl in Hx. unfold z in Hx.
  destruct Hx as [<-|[<-|[<-|[]]]]; vm_compute; intuition congruence.
Qed.
Lemma pts3_lawful : lawful DecArith pts3.
Proof. split; [exact DecArith_order|]. split; [exact pts3_mid|exact DecArith_circle]. Qed.

(* the whole run of pts3: four events, the last one a circle event *)
Lemma ends3 : ends DecArith pts3 box 4 1 3 4 = true.
Proof. vm_compute. reflexivity. Qed.
Lemma circle3 : circle_next DecArith pts3 box 3 = true.
Proof. vm_compute. reflexivity. Qed.
Lemma site3 : site_next DecArith pts3 box 1 = true.
Proof. vm_compute. reflexivity. Qed.

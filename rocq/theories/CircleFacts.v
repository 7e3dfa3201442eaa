(* CircleFacts.v -- create_diagram with a BoundingCircle. *)
From stdpp Require Import base list.
From Verif Require Import Arith Geom Monad Tree State Sweep Finish TreeProofs Circle.
Local Open Scope monad_scope.

Section Facts.
Context (A : Arith).

(* the loop on a list is the loop of Finish.v *)
Lemma border_loop_on_list l pairs cell (s : state A) :
  border_loop_on A (EList l) pairs cell s =
  match border_loop A pairs cell s with Val (s', r) => Val (s', EList (l ++ r)) | Raise e => Raise e end.
Proof.
  revert l cell s. induction pairs as [|[o e] pairs IH]; intros l cell s; simpl.
  - unfold ret. by rewrite app_nil_r.
  - unfold bind. destruct (border_edge A o e cell s) as [[s1 [cell' x]]|]; [|done].
    simpl. unfold ret. rewrite IH. destruct (border_loop A pairs cell' s1) as [[s2 r]|]; [|done].
    by rewrite <- app_assoc.
Qed.

Lemma sides_cons {X} (x : X) l : exists y r, sides (x :: l) = (x, y) :: r.
Proof. unfold sides. destruct (l ++ [x]) as [|y t] eqn:E; [by destruct l|]. simpl. eauto. Qed.

(* the loop on a pair raises in its first round *)
Lemma border_loop_on_pair l vs o e r cell (s s' : state A) z :
  border_loop_on A (EPair l vs) ((o, e) :: r) cell s <> Val (s', z).
Proof.
  simpl. intros H. apply bind_inv' in H as (s1 & [cell' x] & _ & H). apply bind_inv' in H as (s2 & ev & H & _).
  discriminate H.
Qed.

Lemma circle_finish_edges_pair ci es (s s' : state A) ev : circle_finish_edges A ci es s = Val (s', ev) -> exists l vs, ev = EPair l vs.
Proof.
  unfold circle_finish_edges. intros H.
  apply bind_inv' in H as (s1 & r & _ & H). apply bind_inv' in H as (s2 & pv & _ & H).
  apply bind_inv' in H as (s3 & vs & _ & H). apply bind_inv' in H as (s4 & [] & _ & H).
  injection H as _ <-. eauto.
Qed.

Lemma circle_finish_polygon_pair ci l vs ex ps (s s' : state A) z : circle_finish_polygon A ci (EPair l vs) ex ps s <> Val (s', z).
Proof.
  unfold circle_finish_polygon. intros H.
  apply bind_inv' in H as (s1 & pv & _ & H). apply bind_inv' in H as (s2 & ws & _ & H).
  destruct ws as [|v0 ws]; [discriminate H|].
  apply bind_inv' in H as (s3 & p0 & _ & H). apply bind_inv' in H as (s4 & xys & _ & H).
  apply bind_inv' in H as (s5 & i & _ & H). apply bind_inv' in H as (s6 & cell & _ & H).
  apply bind_inv' in H as (s7 & ev & H & _). destruct (sides_cons v0 ws) as (y & r & E). rewrite E in H.
  by apply border_loop_on_pair in H.
Qed.

Theorem circle_raises ci fuel xys (s : state A) : exists e, create_diagram_circle A ci fuel xys s = Raise e.
Proof.
  destruct (create_diagram_circle A ci fuel xys s) as [[s' z]|e] eqn:H; [|eauto]. exfalso.
  unfold create_diagram_circle in H.
  apply bind_inv' in H as (s1 & [] & _ & H). apply bind_inv' in H as (s2 & es & _ & H).
  apply bind_inv' in H as (s3 & ev & E & H). apply circle_finish_edges_pair in E as (l & vs & ->).
  apply bind_inv' in H as (s4 & vs' & _ & H). apply bind_inv' in H as (s5 & sites & _ & H).
  by apply circle_finish_polygon_pair in H.
Qed.

(* how far a run gets: the clipped edges and the vertices on the circle *)
Definition clips ci fuel xys (ne nv : nat) : bool :=
  match (sweep A fuel xys;;; es <- read s_edges;; circle_finish_edges A ci es) (init_state A []) with
  | Val (_, EPair l vs) => (length l =? ne)%nat && (length vs =? nv)%nat
  | _ => false
  end.
Lemma clips_case ci fuel xys ne nv : clips ci fuel xys ne nv = true -> exists s l vs,
  (sweep A fuel xys;;; es <- read s_edges;; circle_finish_edges A ci es) (init_state A []) = Val (s, EPair l vs) /\
  length l = ne /\ length vs = nv.
Proof.
  unfold clips. destruct (bind _ _ _) as [[s [l|l vs]]|]; [done| |done].
  intros H. apply andb_prop in H as [H1 H2]. apply Nat.eqb_eq in H1, H2. exists s, l, vs. done.
Qed.

(* the distance between two points, squared, as the arithmetic computes it *)
Definition gap (p q : pt A) : D A := dadd A (dsq A (dsub A (fst p) (fst q))) (dsq A (dsub A (snd p) (snd q))).
(* vertex k of the outline is at a point that site i is nearest to, and no other *)
Definition stray ci fuel xys (k i : nat) : bool :=
  match (sweep A fuel xys;;; es <- read s_edges;; circle_finish_edges A ci es) (init_state A []) with
  | Val (s, EPair l vs) =>
      match vs !! k with
      | Some v => match s_verts s !! v, xys !! i with
                  | Some (mkVertex (Some q) _), Some p =>
                      forallb (fun j => (j =? i)%nat || match xys !! j with Some p' => dltb A (gap p q) (gap p' q) | None => false end) (seq 0 (length xys))
                  | _, _ => false
                  end
      | None => false
      end
  | _ => false
  end.
Lemma stray_case ci fuel xys k i : stray ci fuel xys k i = true -> exists s l vs v q p,
  (sweep A fuel xys;;; es <- read s_edges;; circle_finish_edges A ci es) (init_state A []) = Val (s, EPair l vs) /\
  v ∈ vs /\ (exists w, s_verts s !! v = Some w /\ v_xy w = Some q) /\ xys !! i = Some p /\ forall j p', j <> i -> xys !! j = Some p' -> dltb A (gap p q) (gap p' q) = true.
Proof.
  unfold stray. destruct (bind _ _ _) as [[s [l|l vs]]|]; [done| |done]. destruct (vs !! k) as [v|] eqn:Ev; [|done].
  destruct (s_verts s !! v) as [[[q|] c]|] eqn:Ew; [|done..]. destruct (xys !! i) as [p|] eqn:Ep; [|done]. intros H. rewrite forallb_forall in H.
  exists s, l, vs, v, q, p. split; [done|]. split; [by eapply elem_of_list_lookup_2|]. split; [by exists (mkVertex (Some q) c)|]. split; [done|].
  intros j p' N Hj. assert (B : (j < length xys)%nat) by (by apply lookup_lt_Some in Hj). specialize (H j ltac:(apply in_seq; lia)). rewrite Hj in H.
  apply orb_prop in H as [H|H]; [|done]. by apply Nat.eqb_eq in H.
Qed.
End Facts.

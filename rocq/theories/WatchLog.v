(* WatchLog.v -- the notifications of a run are determined, and are those in the log. *)
From stdpp Require Import base list sets.
From Coq Require Import ZArith Lia.
From Verif Require Import Arith Geom Monad Tree State Sweep Finish SweepBase Spec SweepLoop Watch SpecWatch WatchFacts PropFinish.
Local Open Scope monad_scope.
Local Open Scope nat_scope.

Section WL.
Context (A : Arith) (pts corners : list (pt A)).
Implicit Types s : state A.

Inductive onward : state A * nat * list (state A) -> state A * nat * list (state A) -> Prop :=
| onward_refl x : onward x x
| onward_step s idx seen s1 i s2 idx' y : queue_get A s = Val (s1, Some i) -> step A i idx s1 = Val (s2, idx') ->
    onward (s2, idx', if ignored A s i then seen else seen ++ [s2]) y -> onward (s, idx, seen) y.
Lemma onward_snoc x y : onward x y -> forall s idx seen s1 i s2 idx', y = (s, idx, seen) -> queue_get A s = Val (s1, Some i) -> step A i idx s1 = Val (s2, idx') ->
  onward x (s2, idx', if ignored A s i then seen else seen ++ [s2]).
Proof. induction 1 as [x|]; intros; subst; [by eapply onward_step; [..|apply onward_refl]|eapply onward_step; eauto]. Qed.
Lemma notified_onward s idx seen : notified A pts corners s idx seen -> forall s' idx' seen', notified A pts corners s' idx' seen' ->
  onward (s, idx, seen) (s', idx', seen') \/ onward (s', idx', seen') (s, idx, seen).
Proof.
  induction 1 as [s H|s idx seen s1 i s2 idx2 H IH Hg Hst]; intros s' idx' seen' H'.
  - left. clear -H H'. induction H' as [s' H'|s' idx' seen' s1 i s2 idx2 H' IH Hg Hst].
    + rewrite H in H'. injection H' as ->. apply onward_refl.
    + by eapply onward_snoc.
  - destruct (IH s' idx' seen' H') as [X|X].
    + inversion X as [x|? ? ? t1 j t2 jdx ? G1 G2 G3]; subst.
      * right. eapply onward_step; [done..|apply onward_refl].
      * rewrite Hg in G1. injection G1 as <- <-. rewrite Hst in G2. injection G2 as <- <-. by left.
    + right. by eapply onward_snoc.
Qed.
Lemma queue_empty s : s_queue s = [] -> queue_get A s = Val (s, None).
Proof. intros H. unfold queue_get, bind, read. rewrite H. done. Qed.
Lemma notified_unique s idx seen s' idx' seen' : notified A pts corners s idx seen -> s_queue s = [] -> notified A pts corners s' idx' seen' -> s_queue s' = [] ->
  s = s' /\ seen = seen'.
Proof.
  intros H Q H' Q'. destruct (notified_onward s idx seen H s' idx' seen' H') as [X|X]; inversion X as [x|? ? ? t1 j t2 jdx ? G1 G2 G3]; subst; try done.
  - by rewrite (queue_empty s Q) in G1.
  - by rewrite (queue_empty s' Q') in G1.
Qed.

Definition shown_msg (m : message) : bool := match m with DEBUG => false | _ => true end.
Lemma steps_only (l : list (subject_id * message * option (D A))) : seen A SWEEP_FINISHED l = [] -> seen A VORONOI_FINISHED l = [] ->
  List.filter shown_msg (map (fun x => snd (fst x)) l) = repeat STEP_FINISHED (List.length (seen A STEP_FINISHED l)).
Proof.
  induction l as [|[[a m] o] l IH]; [done|]. unfold seen in *. cbn [omap list_omap map fst snd]. destruct m; cbn [List.filter shown_msg List.length repeat]; try done.
  intros H1 H2. f_equal. by apply IH.
Qed.
Lemma debug_only (l : list (subject_id * message * option (D A))) : Forall (fun x => snd (fst x) = DEBUG) l -> List.filter shown_msg (map (fun x => snd (fst x)) l) = [].
Proof. induction 1 as [|[[a m] o] l H HF IH]; [done|]. cbn in H. by subst m. Qed.
Lemma pair_repeat (l : list (state A)) : map fst (map (pair STEP_FINISHED) l) = repeat STEP_FINISHED (List.length l).
Proof. induction l as [|? l IH]; [done|]. cbn. by f_equal. Qed.
Lemma notifications_log poly flag fuel s' : lawful A pts -> 1 <= List.length pts -> 2 <= List.length corners ->
  create_diagram A poly flag fuel pts (init_state A corners) = Val (s', tt) ->
  exists s idx seen, notified A pts corners s idx seen /\ s_queue s = [] /\
    (forall s2 idx2 seen2, notified A pts corners s2 idx2 seen2 -> s_queue s2 = [] -> s2 = s /\ seen2 = seen) /\
    List.filter shown_msg (map (fun x => snd (fst x)) (s_log s')) = map fst (notifications A seen s s').
Proof.
  intros HL Hn Hk HD. destruct (C33_messages A pts corners poly flag fuel s' HL Hn Hk HD) as (s & idx & hist & l1 & l2 & [HR HQ] & EL & E1 & E2 & E3 & E4).
  assert (exists seen, notified A pts corners s idx seen /\ List.length seen = List.length hist) as (seen & HNo & ELn).
  { clear -HR. induction HR as [s H|s idx hist s1 i s2 idx' H (seen & IH & E) Hg Hst]; [exists []; split; [by apply notified_start|done]|].
    eexists. split; [by eapply notified_step|]. destruct (ignored A s i); [done|]. by rewrite !app_length, E. }
  exists s, idx, seen. split; [done|]. split; [done|]. split.
  { intros s2 idx2 seen2 H2 Q2. destruct (notified_unique s idx seen s2 idx2 seen2 HNo HQ H2 Q2) as [-> ->]. done. }
  rewrite EL. unfold notifications. rewrite !map_app, List.filter_app. f_equal.
  - rewrite steps_only by done. rewrite E1, map_length, pair_repeat. by rewrite ELn.
  - cbn [map fst snd List.filter shown_msg]. rewrite map_app, List.filter_app, debug_only by done. done.
Qed.
End WL.

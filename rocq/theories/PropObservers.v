(* PropObservers.v -- C32: delivery of messages to observers. *)
From stdpp Require Import base list.
From Coq Require Import Lia.
From Verif Require Import Arith Observers SpecObservers ObserverFacts.

(* C32.  After any history on n subjects in which observers are attached to (and detached
   from) subjects that do not inherit, a message to such a subject makes one call of update
   per attachment still in force, in the order of attachment, with the subject itself as
   the sender; nothing else changes and nothing is raised.  (The bound on the loop that
   stands for Python's `for` is any number above the length of the history.) *)
Theorem C32_delivery (Msg : Type) (n : nat) (h : list (op Msg)) (s : nat) (m : Msg) (fuel : nat) :
  tidy n h -> s < n -> is_root h s -> length h < fuel ->
  let st := run_ops quiet fuel h (fresh n) in
  notify quiet fuel s m st =
    (mkO (o_subj st) (o_lists st) (o_log st ++ ((fun o => mkDelivery o s m) <$> attached h s)), None).
Proof. exact (delivered_root n h s m fuel). Qed.
Print Assumptions C32_delivery.

(* C32, a subject c that inherits from p, the one parent it ever has: what is attached to p
   is called, with p as the sender -- provided nothing was attached to p when c began to
   inherit, or p's observers have changed since.  Missing from the English claim: the case
   refuted next. *)
Theorem C32_delivery_child_partial (Msg : Type) (n : nat) (h1 h2 : list (op Msg)) (c p : nat) (m : Msg) (fuel : nat) :
  let h := h1 ++ Inherit c p :: h2 in
  tidy n h -> length h < fuel -> (forall q, In (Inherit c q) h -> q = p) ->
  (attached h1 p = [] \/ exists h3 x h4, h2 = h3 ++ x :: h4 /\ changes (h1 ++ Inherit c p :: h3) p x) ->
  let st := run_ops quiet fuel h (fresh n) in
  notify quiet fuel c m st =
    (mkO (o_subj st) (o_lists st) (o_log st ++ ((fun o => mkDelivery o p m) <$> attached h p)), None).
Proof. exact (delivered_child n h1 h2 c p m fuel). Qed.
Print Assumptions C32_delivery_child_partial.

(* Detaching an observer that is not attached raises ValueError and changes nothing. *)
Theorem C32_detach_absent (Msg : Type) (n : nat) (h : list (op Msg)) (s o : nat) (fuel : nat) :
  tidy n h -> s < n -> is_root h s -> length h < fuel -> ~ In o (attached h s) ->
  detach s o (run_ops quiet fuel h (fresh n)) = (run_ops quiet fuel h (fresh n), Some ValueError).
Proof. exact (detach_absent n h s o fuel). Qed.
Print Assumptions C32_detach_absent.

(* the way the library sets up its two subjects: 0 the Algorithm, 1 its polygon
   (algorithm.py:57-58), observers 7 and 8 attached afterwards and 7 detached again *)
Definition usual : list (op bool) :=
  [Inherit 1 0; Attach 0 7; Notify 0 true; Attach 0 8; Notify 1 false; Detach 0 7; Notify 1 true].
Ltac tidy_list := intros x I; simpl in I; repeat destruct I as [<- |I]; try destruct I;
  repeat split; try lia; intros (p & P); simpl in P;
  repeat match type of P with _ \/ _ => destruct P as [P|P] end; try discriminate P; try destruct P.
Example usual_tidy : tidy 2 usual.
Proof. tidy_list. Qed.
Example usual_attached : attached usual 0 = [8].
Proof. reflexivity. Qed.
Example usual_log : o_log (run_ops quiet 20 usual (fresh 2)) =
  [mkDelivery 7 0 true; mkDelivery 7 0 false; mkDelivery 8 0 false; mkDelivery 8 0 true].
Proof. reflexivity. Qed.
Example usual_root : is_root usual 0.
Proof. intros (p & P). simpl in P. repeat (destruct P as [P|P]; [discriminate P|]). destruct P. Qed.
Example usual_child : usual = [] ++ Inherit 1 0 :: tl usual /\
  (forall q, In (Inherit 1 q) usual -> q = 0) /\ attached (Msg := bool) [] 0 = [].
Proof.
  split; [reflexivity|]. split; [|reflexivity]. intros q Q. simpl in Q.
  repeat (destruct Q as [Q|Q]; [try discriminate Q; injection Q as <-; reflexivity|]). destruct Q.
Qed.

(* Refuted: "attachments of the parent are visible to the child".  An observer attached
   before the child began to inherit is not called. *)
Theorem C32_attached_before_inherit_refuted :
  exists (n : nat) (h : list (op bool)) (c p : nat),
    tidy n h /\ In (Inherit c p) h /\ (forall q, In (Inherit c q) h -> q = p) /\ attached h p <> [] /\
    o_log (fst (notify quiet 20 c true (run_ops quiet 20 h (fresh n)))) = [].
Proof.
  exists 2, [Attach 0 7; Inherit 1 0], 1, 0.
  split; [tidy_list|]. split; [right; left; reflexivity|]. split.
  { intros q Q. simpl in Q. destruct Q as [Q|[Q|[]]]; [discriminate Q|]. by injection Q. }
  split; [discriminate|reflexivity].
Qed.
Print Assumptions C32_attached_before_inherit_refuted.

(* Refuted: "with the root subject as sender" when a child has a child of its own: 2 inherits
   from 1 which inherits from 0.  An observer attached to 0 is not called for 2; after one
   more attachment through 1 it is called, but with 1 as the sender. *)
Theorem C32_grandchild_refuted :
  let h : list (op bool) := [Inherit 1 0; Inherit 2 1; Attach 0 7] in
  o_log (fst (notify quiet 20 2 true (run_ops quiet 20 h (fresh 3)))) = [] /\
  o_log (fst (notify quiet 20 2 true (run_ops quiet 20 (h ++ [Attach 1 8]) (fresh 3)))) =
    [mkDelivery 7 1 true; mkDelivery 8 1 true].
Proof. split; reflexivity. Qed.
Print Assumptions C32_grandchild_refuted.

(* Refuted: "calls every attached observer" when an observer detaches itself while it is
   being called: 8, which is attached all the time, misses the message. *)
Theorem C32_detach_while_notified_refuted :
  let react o := if decide (o = 7) then Detaching 0 7 else Quiet in
  let h : list (op bool) := [Attach 0 7; Attach 0 8; Notify 0 true] in
  attached h 0 = [7; 8] /\
  o_log (run_ops react 20 h (fresh 1)) = [mkDelivery 7 0 true] /\
  observers (run_ops react 20 h (fresh 1)) 0 = [8].
Proof. repeat split; reflexivity. Qed.
Print Assumptions C32_detach_while_notified_refuted.

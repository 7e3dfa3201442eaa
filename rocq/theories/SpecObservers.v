(* SpecObservers.v -- which observers a history attaches to a subject, and what a message
   must deliver.  Written without the definitions of Observers.v other than the names of
   the operations. *)
From stdpp Require Import base list.
From Verif Require Import Observers.

Section Spec.
Context {Msg : Type}.
Implicit Types h : list (op Msg).

(* without its first occurrence of o *)
Fixpoint without (o : nat) (l : list nat) : list nat :=
  match l with [] => [] | x :: r => if decide (x = o) then r else x :: without o r end.

(* the observers attached to s at the end of a history, oldest first: attaching adds at the
   end, detaching takes away the oldest attachment of that observer, nothing else counts *)
Definition attached (h : list (op Msg)) (s : nat) : list nat :=
  fold_left (fun l x => match x with
    | Attach s' o => if decide (s' = s) then l ++ [o] else l
    | Detach s' o => if decide (s' = s) then without o l else l
    | _ => l
    end) h [].

(* s inherits from some other subject at some point of the history *)
Definition is_child h s : Prop := exists p, In (Inherit s p) h.
Definition is_root h s : Prop := ~ is_child h s.

(* every subject named exists, observers are attached to and detached from roots, and
   subjects inherit from roots: the way Algorithm and Polygon are used *)
Definition tidy (n : nat) h : Prop :=
  forall x, In x h ->
  match x with
  | Attach s _ | Detach s _ => s < n /\ is_root h s
  | Inherit c p => c < n /\ p < n /\ is_root h p
  | Notify s _ => s < n
  end.

(* attaching to, or really detaching from, p after the history h *)
Definition changes (h : list (op Msg)) (p : nat) (x : op Msg) : Prop :=
  match x with
  | Attach s _ => s = p
  | Detach s o => s = p /\ In o (attached h p)
  | _ => False
  end.
End Spec.

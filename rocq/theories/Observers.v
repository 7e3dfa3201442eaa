(* Observers.v -- foronoi/observers/subject.py: subjects, their lists of observers and
   the delivery of messages. *)
From stdpp Require Import base list.
From Verif Require Import Arith.

(* subject.py:9-12, the attributes of a Subject.  Python shares lists by reference:
   `_observers` is the identity of a list object.  `_child_sender` is never read: omitted. *)
Record subject : Type := mkSubject {
  sb_obs : nat;             (* _observers: a list object *)
  sb_children : list nat;   (* _children *)
  sb_root : nat             (* _root_sender *)
}.

(* One call of observer.update(sender, message); the keyword arguments are not modelled *)
Record delivery (Msg : Type) : Type := mkDelivery { dl_observer : nat; dl_sender : nat; dl_message : Msg }.
Arguments mkDelivery {Msg}. Arguments dl_observer {Msg}. Arguments dl_sender {Msg}. Arguments dl_message {Msg}.

Section Observers.
Context {Msg : Type}.

(* all subjects, all list objects, and the calls of update made so far *)
Record ostate : Type := mkO { o_subj : list subject; o_lists : list (list nat); o_log : list (delivery Msg) }.

(* What user code, or an observer from within its update method, may do.  Observers are
   compared by identity (class Observer defines no __eq__). *)
Inductive op : Type :=
| Attach (s o : nat)      (* s.attach_observer(o) *)
| Detach (s o : nat)      (* s.detach_observer(o) *)
| Inherit (c p : nat)     (* c.inherit_observers_from(p) *)
| Notify (s : nat) (m : Msg). (* s.notify_observers(m) *)

(* An operation returns the state it leaves, also when it raises. *)
Definition outcome : Type := (ostate * option exn)%type.

(* n subjects that have just been created (subject.py:5-12): each has its own empty list *)
Definition fresh (n : nat) : ostate :=
  mkO ((fun i => mkSubject i [] i) <$> seq 0 n) ((fun _ => []) <$> seq 0 n) [].

(* the list object of a subject: get_observers (subject.py:53-57) *)
Definition observers (st : ostate) (s : nat) : list nat :=
  match o_subj st !! s with
  | Some x => default [] (o_lists st !! sb_obs x)
  | None => []
  end.

Definition set_obs (l : nat) (x : subject) : subject := mkSubject l (sb_children x) (sb_root x).
Definition add_child (c : nat) (x : subject) : subject := mkSubject (sb_obs x) (sb_children x ++ [c]) (sb_root x).
Definition set_root_sender (p : nat) (x : subject) : subject := mkSubject (sb_obs x) (sb_children x) p.

(* subject.py:79-84 _update_children *)
Definition update_children (x : subject) (st : ostate) : ostate :=
  mkO (fold_left (fun l c => alter (set_obs (sb_obs x)) c l) (sb_children x) (o_subj st)) (o_lists st) (o_log st).

(* list.remove: the first occurrence; None: ValueError *)
Fixpoint remove_first (o : nat) (l : list nat) : option (list nat) :=
  match l with
  | [] => None
  | x :: r => if decide (x = o) then Some r else option_map (cons x) (remove_first o r)
  end.

(* subject.py:14-25 attach_observer *)
Definition attach (s o : nat) (st : ostate) : outcome :=
  match o_subj st !! s with
  | None => (st, Some Dangling)
  | Some x => (update_children x (mkO (o_subj st) (alter (fun l => l ++ [o]) (sb_obs x) (o_lists st)) (o_log st)), None)
  end.

(* subject.py:27-38 detach_observer *)
Definition detach (s o : nat) (st : ostate) : outcome :=
  match o_subj st !! s with
  | None => (st, Some Dangling)
  | Some x =>
      match remove_first o (observers st s) with
      | None => (st, Some ValueError)
      | Some l => (update_children x (mkO (o_subj st) (<[sb_obs x := l]> (o_lists st)) (o_log st)), None)
      end
  end.

(* subject.py:59-71 inherit_observers_from, with _add_child (73-77) *)
Definition inherit (c p : nat) (st : ostate) : outcome :=
  match o_subj st !! c, o_subj st !! p with
  | Some _, Some _ =>
      (mkO (alter (set_root_sender p) c (alter (add_child c) p (o_subj st))) (o_lists st) (o_log st), None)
  | _, _ => (st, Some Dangling)
  end.

(* what an observer does to subjects from within its update method *)
Inductive reaction : Type := Quiet | Attaching (s o : nat) | Detaching (s o : nat).
Definition do_reaction (r : reaction) (st : ostate) : outcome :=
  match r with Quiet => (st, None) | Attaching s o => attach s o st | Detaching s o => detach s o st end.

Section React.
Context (react : nat -> reaction).

(* subject.py:40-51 notify_observers: a Python for-loop over the list object, which
   the observers called may change; l is that object, i the position of the iterator *)
Fixpoint notify_loop (fuel i l s : nat) (m : Msg) (st : ostate) : outcome :=
  match fuel with
  | O => (st, Some OutOfFuel)
  | S fuel =>
      match o_subj st !! s with
      | None => (st, Some Dangling)
      | Some x =>
          match default [] (o_lists st !! l) !! i with
          | None => (st, None)
          | Some o =>
              match do_reaction (react o) (mkO (o_subj st) (o_lists st) (o_log st ++ [mkDelivery o (sb_root x) m])) with
              | (st', None) => notify_loop fuel (S i) l s m st'
              | r => r
              end
          end
      end
  end.

Definition notify (fuel s : nat) (m : Msg) (st : ostate) : outcome :=
  match o_subj st !! s with
  | None => (st, Some Dangling)
  | Some x => notify_loop fuel 0 (sb_obs x) s m st
  end.

Definition do_op (fuel : nat) (x : op) (st : ostate) : outcome :=
  match x with
  | Attach s o => attach s o st
  | Detach s o => detach s o st
  | Inherit c p => inherit c p st
  | Notify s m => notify fuel s m st
  end.

(* a history; the caller catches exceptions and carries on *)
Definition run_ops (fuel : nat) (h : list op) (st : ostate) : ostate :=
  fold_left (fun st x => fst (do_op fuel x st)) h st.
End React.
End Observers.
Arguments op : clear implicits. Arguments ostate : clear implicits. Arguments outcome : clear implicits.

(* Monad.v -- computations that read and write an object store and may raise.
   [M S X]: from a store to either a new store and a result, or a Python exception.
   (The store at the moment of an exception is not kept.) *)
From stdpp Require Import base list.
From Verif Require Import Arith.

Definition M (S X : Type) : Type := S -> result (S * X).

Section M.
Context {S : Type}.
Definition ret {X} (x : X) : M S X := fun s => Val (s, x).
Definition raise {X} (e : exn) : M S X := fun _ => Raise e.
Definition bind {X Y} (m : M S X) (k : X -> M S Y) : M S Y :=
  fun s => match m s with Val (s', x) => k x s' | Raise e => Raise e end.
Definition read {X} (f : S -> X) : M S X := fun s => Val (s, f s).
Definition write (f : S -> S) : M S unit := fun s => Val (f s, tt).
(* a pure function that may raise *)
Definition lift {X} (r : result X) : M S X :=
  fun s => match r with Val x => Val (s, x) | Raise e => Raise e end.
(* a function of the store that may raise *)
Definition ask {X} (f : S -> result X) : M S X :=
  fun s => match f s with Val x => Val (s, x) | Raise e => Raise e end.
(* attribute access on an optional object: None.attr raises AttributeError *)
Definition need {X} (o : option X) : M S X :=
  match o with Some x => ret x | None => raise AttributeError end.
(* dereferencing an identifier *)
Definition deref {X} (o : option X) : M S X :=
  match o with Some x => ret x | None => raise Dangling end.
End M.

Declare Scope monad_scope.
Delimit Scope monad_scope with monad.
Notation "x <- m ;; k" := (bind m (fun x => k))
  (at level 60, m at level 59, k at level 60, right associativity) : monad_scope.
Notation "' p <- m ;; k" := (bind m (fun p => k))
  (at level 60, p pattern, m at level 59, k at level 60, right associativity, only parsing) : monad_scope.
Notation "m ;;; k" := (bind m (fun _ => k))
  (at level 60, k at level 60, right associativity) : monad_scope.
Local Open Scope monad_scope.

(* Run a computation on a part of the store. *)
Definition zoom {S T X} (get : S -> T) (put : T -> S -> S) (m : M T X) : M S X :=
  fun s => match m (get s) with Val (t, x) => Val (put t s, x) | Raise e => Raise e end.

Definition get_at {T} (n : nat) : M (list T) T := fun h => match h !! n with Some x => Val (h, x) | None => Raise Dangling end.
Definition upd_at {T} (n : nat) (f : T -> T) : M (list T) unit :=
  fun h => match h !! n with Some x => Val (<[n := f x]> h, tt) | None => Raise Dangling end.

(* Arith.v -- exceptions, and the arithmetic the model is parameterised by.

   The Python code computes with decimal.Decimal (attributes .xd/.yd) and with
   binary floats (numpy / math).  The model never fixes how these round: every
   function of the model takes an [Arith], i.e. the operations used by the code.
   RArith.v gives exact real arithmetic, DecArith.v an executable 28-digit one. *)
From Coq Require Import ZArith List Bool.
Import ListNotations.

(* Python exceptions that the modelled code can raise.  [OutOfFuel] is not a
   Python exception: it stands for a loop that did not finish within its fuel.
   [Dangling] stands for an access to an identifier that was never allocated;
   Python references cannot dangle, the value exists only to make lookups total. *)
Inductive exn : Type :=
| AttributeError | ValueError | IndexError | AssertionError | TypeError
| InvalidOperation | DivisionByZero
| OutOfFuel | Dangling.

(* Result of a pure function that may raise. *)
Inductive result (X : Type) : Type := Val (x : X) | Raise (e : exn).
Arguments Val {X} _. Arguments Raise {X} _.

Definition rbind {X Y} (m : result X) (k : X -> result Y) : result Y :=
  match m with Val x => k x | Raise e => Raise e end.
Declare Scope result_scope.
Delimit Scope result_scope with result.
Notation "x <-r m ;; k" := (rbind m (fun x => k))
  (at level 60, m at level 59, k at level 60, right associativity) : result_scope.

Fixpoint rmap {X Y} (f : X -> result Y) (l : list X) : result (list Y) :=
  match l with
  | nil => Val nil
  | x :: l' => rbind (f x) (fun y => rbind (rmap f l') (fun ys => Val (y :: ys)))
  end.

Record Arith : Type := mkArith {
  (* decimal.Decimal *)
  D : Type;
  dZ : Z -> D;                          (* integer literals *)
  dadd : D -> D -> D;
  dsub : D -> D -> D;
  dmul : D -> D -> D;
  ddiv : D -> D -> option D;            (* None: DivisionByZero / InvalidOperation is raised *)
  dneg : D -> D;
  dabs : D -> D;
  dsq  : D -> D;                        (* x ** 2 *)
  dsqrt : D -> option D;                (* None: InvalidOperation is raised (negative operand) *)
  dltb : D -> D -> bool;
  deqb : D -> D -> bool;
  (* float *)
  F : Type;
  fZ : Z -> F;
  fhalf : F;                            (* 0.5 *)
  fadd : F -> F -> F;
  fsub : F -> F -> F;
  fmul : F -> F -> F;
  fdiv : F -> F -> F;
  fneg : F -> F;
  fabs : F -> F;
  fsqrt : F -> F;
  fltb : F -> F -> bool;
  fleb : F -> F -> bool;
  feqb : F -> F -> bool;
  toF : D -> F;                         (* float(d) *)
  ofF : F -> D;                         (* Decimal(str(f)), coordinate.py:27 *)
  fangle : F -> F -> F;                 (* fangle dy dx = math.degrees(math.atan2(dy, dx)) % 360 *)
  fmod360 : F -> F                      (* f % 360 *)
}.

(* a <= b on Decimals (there are no NaNs in the code paths modelled) *)
Definition dleb (A : Arith) (a b : D A) : bool := negb (dltb A b a).

(* The comparisons of the arithmetic form a total order, up to numerical equality
   (Decimal('1.0') == Decimal('1.00') although the objects differ). *)
Record TotalOrder (A : Arith) : Prop := {
  to_irrefl : forall a, dltb A a a = false;
  to_trans : forall a b c, dltb A a b = true -> dltb A b c = true -> dltb A a c = true;
  to_cotrans : forall a b c, dltb A a b = true -> dltb A a c = true \/ dltb A c b = true;
  to_eqb : forall a b, deqb A a b = negb (dltb A a b) && negb (dltb A b a)
}.

(* The arithmetic mean of two of the given numbers does not reach a number that
   exceeds one of them and is not below the other.  Exact arithmetic satisfies this for
   all numbers, 28-digit arithmetic for numbers of at most 27 digits (DecArith.v). *)
Definition MidOK (A : Arith) (xs : list (D A)) : Prop :=
  forall a b c m, In a xs -> In b xs -> In c xs ->
    dltb A a c = true -> dltb A c b = false ->
    ddiv A (dadd A a b) (dZ A 2) = Some m -> dltb A m c = true.

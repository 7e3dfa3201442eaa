(* DecArith.v -- an executable instance of [Arith]: decimal floating point with 28
   significant digits and round-half-even, the default context of Python's decimal
   module.  Exponents are unbounded, there are no signed zeros, NaNs or infinities.
   The float side is carried by the same type (the code's floats are binary64);
   angles are the "diamond" angle, an increasing function of the polar angle that is
   0, 90, 180, 270 on the half axes like degrees(atan2(dy, dx)) % 360. *)
From Coq Require Import ZArith Bool List Lia.
From Verif Require Import Arith.
Local Open Scope Z_scope.

Record dec : Type := mkdec { dm : Z; de : Z }.     (* dm * 10 ^ de *)

Definition prec : Z := 28.
Definition ten28 : Z := 10000000000000000000000000000.

(* number of decimal digits of a non-negative integer (0 for 0) *)
Fixpoint ndigits_fuel (fuel : nat) (n : Z) : Z :=
  match fuel with
  | O => 0
  | S f => if n <=? 0 then 0 else 1 + ndigits_fuel f (n / 10)
  end.
Definition ndigits (n : Z) : Z := ndigits_fuel (S (Z.to_nat (Z.log2 n))) n.

(* |n| / 10^k rounded half even, for k >= 0, keeping the sign *)
Definition round_div (n k : Z) : Z :=
  let p := 10 ^ k in
  let a := Z.abs n in
  let q := a / p in
  let r := a mod p in
  let q' := if (p <? 2 * r) || ((2 * r =? p) && Z.odd q) then q + 1 else q in
  Z.sgn n * q'.

Definition round28 (n e : Z) : dec :=
  if Z.abs n <? ten28 then mkdec n e
  else let k := ndigits (Z.abs n / ten28) in mkdec (round_div n k) (e + k).

(* align two numbers to the smaller exponent *)
Definition align (a b : dec) : Z * Z * Z :=
  let e := Z.min (de a) (de b) in
  (dm a * 10 ^ (de a - e), dm b * 10 ^ (de b - e), e).

Definition dec_add (a b : dec) : dec := let '(x, y, e) := align a b in round28 (x + y) e.
Definition dec_sub (a b : dec) : dec := let '(x, y, e) := align a b in round28 (x - y) e.
Definition dec_mul (a b : dec) : dec := round28 (dm a * dm b) (de a + de b).
Definition dec_neg (a : dec) : dec := round28 (- dm a) (de a).
Definition dec_abs (a : dec) : dec := round28 (Z.abs (dm a)) (de a).

(* a sticky last digit keeps the correct rounding of an inexact result *)
Definition sticky (q : Z) (exact : bool) : Z :=
  if exact then q else if (q mod 10 =? 0) || (q mod 10 =? 5) then q + 1 else q.

Definition dec_div (a b : dec) : option dec :=
  if dm b =? 0 then None
  else
    let x := Z.abs (dm a) in let y := Z.abs (dm b) in
    let s := Z.max 0 (prec + 2 + ndigits y - ndigits x) in
    let n := x * 10 ^ s in
    let q := n / y in
    let q' := sticky q (n mod y =? 0) in
    Some (round28 (Z.sgn (dm a) * Z.sgn (dm b) * q') (de a - de b - s)).

Definition dec_sqrt (a : dec) : option dec :=
  if dm a <? 0 then None
  else if dm a =? 0 then Some (mkdec 0 0)
  else
    let s0 := Z.max 0 (2 * prec + 4 - ndigits (dm a)) in
    let s := if Z.odd (de a - s0) then s0 + 1 else s0 in
    let n := dm a * 10 ^ s in
    let q := Z.sqrt n in
    Some (round28 (sticky q (q * q =? n)) ((de a - s) / 2)).

Definition dec_lt (a b : dec) : bool := let '(x, y, _) := align a b in x <? y.
Definition dec_eq (a b : dec) : bool := let '(x, y, _) := align a b in x =? y.

Definition dec_Z (n : Z) : dec := mkdec n 0.
Definition dec_div0 (a b : dec) : dec := match dec_div a b with Some q => q | None => dec_Z 0 end.
Definition dec_sqrt0 (a : dec) : dec := match dec_sqrt a with Some q => q | None => dec_Z 0 end.

Definition dec_mod360 (a : dec) : dec :=
  if 0 <=? de a then mkdec ((dm a * 10 ^ de a) mod 360) 0
  else mkdec (dm a mod (360 * 10 ^ (- de a))) (de a).

(* diamond angle: 90 * (t in [0,4)) *)
Definition dec_angle (dy dx : dec) : dec :=
  let z := dec_Z 0 in
  let ax := dec_abs dx in let ay := dec_abs dy in
  let s := dec_add ax ay in
  if dec_eq s z then z
  else
    let t (k : Z) (q : dec) := dec_mul (dec_Z 90) (dec_add (dec_Z k) (dec_div0 q s)) in
    let nneg a := negb (dec_lt a z) in
    if nneg dx && nneg dy then t 0 ay
    else if nneg dy then t 1 ax
    else if dec_lt dx z then t 2 ay
    else t 3 ax.

Definition DecArith : Arith := {|
  D := dec; dZ := dec_Z; dadd := dec_add; dsub := dec_sub; dmul := dec_mul; ddiv := dec_div;
  dneg := dec_neg; dabs := dec_abs; dsq := fun a => dec_mul a a; dsqrt := dec_sqrt;
  dltb := dec_lt; deqb := dec_eq;
  F := dec; fZ := dec_Z; fhalf := mkdec 5 (-1); fadd := dec_add; fsub := dec_sub; fmul := dec_mul;
  fdiv := dec_div0; fneg := dec_neg; fabs := dec_abs; fsqrt := dec_sqrt0;
  fltb := dec_lt; fleb := fun a b => negb (dec_lt b a); feqb := dec_eq;
  toF := fun d => d; ofF := fun f => f;
  fangle := dec_angle; fmod360 := dec_mod360
|}.

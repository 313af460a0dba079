(** Specification: IEEE 754 doubles as x86-64 computes with them (SDM vol. 1 ch. 4 and
    the instruction pages of vol. 2), on 64-bit patterns.  Arithmetic is that of the
    standard library's SpecFloat, rounded to nearest even; the control register MXCSR has its
    initial value (round to nearest, exceptions masked, no flush to zero). *)
From Verif Require Import Base.
From Coq Require Import Floats.SpecFloat.
Local Open Scope Z_scope.

Definition f64_exp (v : Z) : Z := v / 2 ^ 52 mod 2 ^ 11.
Definition f64_man (v : Z) : Z := v mod 2 ^ 52.
Definition f64_sign (v : Z) : bool := Z.testbit v 63.
Definition of_bits (v : Z) : spec_float :=
  let s := f64_sign v in let m := f64_man v in
  if f64_exp v =? 2047 then if m =? 0 then S754_infinity s else S754_nan
  else if f64_exp v =? 0 then match m with Zpos p => S754_finite s p (-1074) | _ => S754_zero s end
  else match m + 2 ^ 52 with Zpos p => S754_finite s p (f64_exp v - 1075) | _ => S754_nan end.
Definition signbit (s : bool) : Z := if s then 2 ^ 63 else 0.
Definition default_nan : Z := 0xfff8000000000000.
Definition to_bits (f : spec_float) : Z :=
  match f with
  | S754_zero s => signbit s
  | S754_infinity s => signbit s + 2047 * 2 ^ 52
  | S754_nan => default_nan
  | S754_finite s p e => signbit s + (if Zpos p <? 2 ^ 52 then Zpos p else (e + 1075) * 2 ^ 52 + (Zpos p - 2 ^ 52))
  end.
Definition is_nan (v : Z) : bool := (f64_exp v =? 2047) && negb (f64_man v =? 0).
(** A signalling NaN becomes quiet. *)
Definition quiet (v : Z) : Z := Z.lor v (2 ^ 51).

(** The first operand that is a NaN is the result. *)
Definition arith (f : spec_float -> spec_float -> spec_float) (a b : Z) : Z :=
  if is_nan a then quiet a else if is_nan b then quiet b else to_bits (f (of_bits a) (of_bits b)).
Definition f64_add : Z -> Z -> Z := arith (SFadd 53 1024).
Definition f64_sub : Z -> Z -> Z := arith (SFsub 53 1024).
Definition f64_mul : Z -> Z -> Z := arith (SFmul 53 1024).
Definition f64_div : Z -> Z -> Z := arith (SFdiv 53 1024).
Definition f64_sqrt (a : Z) : Z := if is_nan a then quiet a else to_bits (SFsqrt 53 1024 (of_bits a)).
(** minsd and maxsd: the second operand unless the first one is strictly smaller (greater);
    so it is also the result for NaNs and for two zeros. *)
Definition f64_lt (a b : Z) : bool := SFltb (of_bits a) (of_bits b).
Definition f64_min (a b : Z) : Z := if f64_lt a b then a else b.
Definition f64_max (a b : Z) : Z := if f64_lt b a then a else b.
Definition f64_cmp (a b : Z) : option comparison := SFcompare (of_bits a) (of_bits b).

(** ** Integers *)
Definition f64_of_int (n : Z) : Z := to_bits (binary_normalize 53 1024 n 0 false).
Inductive rounding := Nearest | Down | Up | Chop.
(** The integer next to m * 2^e. *)
Definition round_int (r : rounding) (s : bool) (m e : Z) : Z :=
  let n := if s then - m else m in
  if 0 <=? e then n * 2 ^ e
  else let d := 2 ^ (- e) in
    match r with
    | Chop => Z.quot n d
    | Down => n / d
    | Up => - (- n / d)
    | Nearest => let q := n / d in let t := 2 * (n mod d) in
        if t <? d then q else if d <? t then q + 1 else if Z.even q then q else q + 1
    end.
Definition int_of (r : rounding) (v : Z) : option Z :=
  match of_bits v with
  | S754_zero _ => Some 0
  | S754_finite s p e => Some (round_int r s (Zpos p) e)
  | _ => None
  end.
(** cvttsd2si to n bits; the "integer indefinite" value when there is none. *)
Definition f64_to_int (n : Z) (v : Z) : Z :=
  match int_of Chop v with
  | Some k => if (- 2 ^ (n - 1) <=? k) && (k <? 2 ^ (n - 1)) then k else - 2 ^ (n - 1)
  | None => - 2 ^ (n - 1)
  end.
(** roundpd, roundsd: bits 0 and 1 of the immediate, or MXCSR if bit 2 is set. *)
Definition round_mode (i : Z) : rounding :=
  if Z.testbit i 2 then Nearest else match i mod 4 with 0 => Nearest | 1 => Down | 2 => Up | _ => Chop end.
Definition f64_round (i v : Z) : Z :=
  if is_nan v then quiet v
  else match int_of (round_mode i) v with
       | Some k => to_bits (binary_normalize 53 1024 k 0 (f64_sign v))
       | None => v
       end.

(** Some values: 1.0 = 0x3ff0000000000000, 0.1 = 0x3fb999999999999a, ... *)
Example f64_add_case : f64_add 0x3fb999999999999a 0x3fc999999999999a = 0x3fd3333333333334. Proof. reflexivity. Qed.   (* 0.1 + 0.2 *)
Example f64_sub_case : f64_sub 0x3ff0000000000000 0x3fb999999999999a = 0x3feccccccccccccd. Proof. reflexivity. Qed.   (* 1 - 0.1 *)
Example f64_mul_case : f64_mul 0x7fefffffffffffff 0x4000000000000000 = 0x7ff0000000000000 /\ f64_mul 1 0x3fe0000000000000 = 0. Proof. split; reflexivity. Qed.
Example f64_div_case : f64_div 0x3ff0000000000000 0x4008000000000000 = 0x3fd5555555555555 /\ f64_div 0 0 = default_nan. Proof. split; reflexivity. Qed.   (* 1 / 3 *)
Example f64_sqrt_case : f64_sqrt 0x4000000000000000 = 0x3ff6a09e667f3bcd /\ f64_sqrt 0x8000000000000000 = 0x8000000000000000. Proof. split; vm_compute; reflexivity. Qed.
Example f64_nan_case : f64_add 0x7ff0000000000001 0x7ff8000000000005 = 0x7ff8000000000001 /\ f64_add 0 0xfff0000000000005 = 0xfff8000000000005. Proof. split; reflexivity. Qed.
Example f64_min_case : f64_min 0 0x8000000000000000 = 0x8000000000000000 /\ f64_min 0x7ff8000000000001 5 = 5 /\ f64_max 0x3ff0000000000000 0xbff0000000000000 = 0x3ff0000000000000.
Proof. repeat split; reflexivity. Qed.
Example f64_int_case : f64_of_int (- 3) = 0xc008000000000000 /\ f64_of_int (2 ^ 53 + 1) = f64_of_int (2 ^ 53) /\
  f64_to_int 64 0x400921fb54442d18 = 3 /\ f64_to_int 64 0xc00921fb54442d18 = - 3 /\ f64_to_int 32 0x41e0000000000000 = - 2 ^ 31. Proof. repeat split; reflexivity. Qed.
Example f64_round_case : f64_round 2 0x400921fb54442d18 = 0x4010000000000000 /\ f64_round 1 0x400921fb54442d18 = 0x4008000000000000 /\
  f64_round 0 0x4004000000000000 = 0x4000000000000000 /\ f64_round 3 0xbfe0000000000000 = 0x8000000000000000. Proof. repeat split; reflexivity. Qed.

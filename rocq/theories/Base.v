(** Integers, bytes and lists used by the whole model.
    Rust fixed-width integers are represented by [Z]; every wrapping cast of the
    code is written explicitly with the functions below. *)
From Coq Require Export ZArith List Bool Lia.
From Coq Require Export ZifyBool ZifyNat.
Export ListNotations.
Open Scope Z_scope.

Global Arguments Z.mul : simpl never.
Global Arguments Z.add : simpl never.
Global Arguments Z.sub : simpl never.
Global Arguments Z.modulo : simpl never.
Global Arguments Z.div : simpl never.
Global Arguments Z.pow : simpl never.
Global Arguments Z.of_nat : simpl never.

(** Rust [x as u8], [x as u16], [x as u32], [x as u64] on any integer. *)
Definition u8 (z : Z) : Z := z mod 256.
Definition u16 (z : Z) : Z := z mod 65536.
Definition u32 (z : Z) : Z := z mod 4294967296.
Definition u64 (z : Z) : Z := z mod 18446744073709551616.

(** Two's complement reading of the low [n] bits: Rust [x as i8/i16/i32/i64]. *)
Definition signed (modulus : Z) (z : Z) : Z :=
  let m := z mod modulus in if m <? modulus / 2 then m else m - modulus.
Definition i8 (z : Z) : Z := signed 256 z.
Definition i16 (z : Z) : Z := signed 65536 z.
Definition i32 (z : Z) : Z := signed 4294967296 z.
Definition i64 (z : Z) : Z := signed 18446744073709551616 z.

(** Ranges used by Rust [iN::try_from]. *)
Definition in_i8 (z : Z) : bool := (-128 <=? z) && (z <=? 127).
Definition in_i16 (z : Z) : bool := (-32768 <=? z) && (z <=? 32767).
Definition in_i32 (z : Z) : bool := (-2147483648 <=? z) && (z <=? 2147483647).
Definition in_i64 (z : Z) : bool :=
  (-9223372036854775808 <=? z) && (z <=? 9223372036854775807).

(** [le n v]: the [n] low bytes of [v], least significant first. *)
Fixpoint le (n : nat) (v : Z) : list Z :=
  match n with
  | O => []
  | S n' => u8 v :: le n' (v / 256)
  end.

(** Little-endian reading of a byte list. *)
Fixpoint unle (bs : list Z) : Z :=
  match bs with
  | [] => 0
  | b :: r => b + 256 * unle r
  end.

(** Point update of a byte memory. *)
Definition upd (m : Z -> Z) (a v : Z) : Z -> Z := fun x => if x =? a then v else m x.

(** [n] consecutive bytes of a memory. *)
Fixpoint read (m : Z -> Z) (a : Z) (n : nat) : list Z :=
  match n with
  | O => []
  | S n' => m a :: read m (a + 1) n'
  end.

Definition is_byte (b : Z) : Prop := 0 <= b < 256.

(** Specification: what the decoded instructions do (Intel SDM vol. 2, operation
    sections), on registers, flags, memory and xmm registers.  A flag the manual calls
    undefined is [None]; an instruction that needs it has no next state here, and
    neither has one that faults (division errors, int3, misaligned 16-byte operands) or
    whose effect is not described (syscall, single precision arithmetic).
    Every address can be read, written and executed.  It does not refer to the model of monoasm. *)
From Verif Require Import Base SpecX86 SpecState SpecProg SpecFP.
Local Open Scope Z_scope.

Record flags := mkFlags { f_cf : option bool; f_pf : option bool; f_zf : option bool; f_sf : option bool; f_of : option bool }.
Record mach := mkMach {
  regs : Z -> Z;          (* rax rcx rdx rbx rsp rbp rsi rdi r8..r15: unsigned 64-bit *)
  xmms : Z -> Z;          (* unsigned 128-bit *)
  fl : flags;
  mm : Z -> Z             (* bytes *)
}.
Definition set_regs (r : Z -> Z) (st : mach) : mach := mkMach r (xmms st) (fl st) (mm st).
Definition set_xmms (x : Z -> Z) (st : mach) : mach := mkMach (regs st) x (fl st) (mm st).
Definition set_fl (f : flags) (st : mach) : mach := mkMach (regs st) (xmms st) f (mm st).
Definition set_mm (m : Z -> Z) (st : mach) : mach := mkMach (regs st) (xmms st) (fl st) m.

(** ** Widths *)
Definition bits (w : width) : Z := match w with W8 => 8 | W16 => 16 | W32 => 32 | W64 => 64 end.
Definition size (w : width) : nat := match w with W8 => 1 | W16 => 2 | W32 => 4 | W64 => 8 end.
Definition trunc (w : width) (v : Z) : Z := v mod 2 ^ bits w.
Definition sgn (w : width) (v : Z) : Z := signed (2 ^ bits w) v.
Definition msb (w : width) (v : Z) : bool := Z.testbit v (bits w - 1).

(** ** Registers and memory *)
(** 32-bit results clear the upper half of the register, 8- and 16-bit results keep the rest. *)
Definition put_reg (w : width) (n v : Z) (st : mach) : mach :=
  set_regs (upd (regs st) n
    match w with
    | W64 | W32 => trunc w v
    | W16 | W8 => regs st n - trunc w (regs st n) + trunc w v
    end) st.
Definition get_hi (n : Z) (st : mach) : Z := regs st n / 256 mod 256.
Definition put_hi (n v : Z) (st : mach) : mach :=
  set_regs (upd (regs st) n (regs st n - 256 * get_hi n st + 256 * (v mod 256))) st.

(** [n] bytes at an address; nothing wraps around the end of the address space. *)
Definition load (n : nat) (a : Z) (st : mach) : option Z :=
  if a + Z.of_nat n <=? 2 ^ 64 then Some (unle (read (mm st) a n)) else None.
Fixpoint poke (m : Z -> Z) (a : Z) (bs : list Z) : Z -> Z :=
  match bs with [] => m | b :: r => poke (upd m a b) (a + 1) r end.
Definition store (n : nat) (a v : Z) (st : mach) : option mach :=
  if a + Z.of_nat n <=? 2 ^ 64 then Some (set_mm (poke (mm st) a (le n v)) st) else None.

(** ** Operands.  [next]: the address of the following instruction. *)
Definition get (w : width) (next : Z) (st : mach) (o : operand) : option Z :=
  match o with
  | OReg w' n => Some (trunc w' (regs st n))
  | OHi n => Some (get_hi n st)
  | OMem a => load (size w) (ea (regs st) next a) st
  | OImm v => Some (trunc w v)
  | OXmm _ | ORel _ => None
  end.
Definition put (w : width) (next : Z) (o : operand) (v : Z) (st : mach) : option mach :=
  match o with
  | OReg w' n => Some (put_reg w' n v st)
  | OHi n => Some (put_hi n v st)
  | OMem a => store (size w) (ea (regs st) next a) v st
  | _ => None
  end.

(** ** Flags *)
Fixpoint xor_bits (n : nat) (v : Z) : bool := match n with O => false | S k => xorb (Z.testbit v (Z.of_nat k)) (xor_bits k v) end.
Definition parity (v : Z) : bool := negb (xor_bits 8 v).
(** Flags of a result, with the given carry and overflow. *)
Definition flags_of (w : width) (r : Z) (c o : option bool) : flags :=
  mkFlags c (Some (parity r)) (Some (r =? 0)) (Some (msb w r)) o.
Definition no_flags : flags := mkFlags None None None None None.

Definition add_with (w : width) (a b c : Z) : Z * flags :=
  let r := trunc w (a + b + c) in
  (r, flags_of w r (Some (2 ^ bits w <=? a + b + c)) (Some (negb (sgn w a + sgn w b + c =? sgn w r)))).
Definition sub_with (w : width) (a b c : Z) : Z * flags :=
  let r := trunc w (a - b - c) in
  (r, flags_of w r (Some (a - b - c <? 0)) (Some (negb (sgn w a - sgn w b - c =? sgn w r)))).
Definition logic (w : width) (r : Z) : Z * flags := (r, flags_of w r (Some false) (Some false)).
Definition carry (st : mach) : option Z := match f_cf (fl st) with Some b => Some (Z.b2z b) | None => None end.
Definition do_alu (o : alu) (w : width) (a b : Z) (st : mach) : option (Z * flags) :=
  match o with
  | ADD => Some (add_with w a b 0)
  | ADC => obind (carry st) (fun c => Some (add_with w a b c))
  | SUB | CMP => Some (sub_with w a b 0)
  | SBB => obind (carry st) (fun c => Some (sub_with w a b c))
  | AND => Some (logic w (Z.land a b))
  | OR => Some (logic w (Z.lor a b))
  | XOR => Some (logic w (Z.lxor a b))
  end.

(** [c]: the count, already masked to 5 or 6 bits. *)
Definition do_shift (o : shf) (w : width) (a c : Z) (f : flags) : option (Z * flags) :=
  let n := bits w in
  let keep r cf := mkFlags (Some cf) (f_pf f) (f_zf f) (f_sf f) r in
  if c =? 0 then Some (a, f)
  else match o with
  | SHL => let r := trunc w (a * 2 ^ c) in
      let cf := Z.testbit a (n - c) in
      Some (r, flags_of w r (if c <? n then Some cf else None) (if c =? 1 then Some (xorb (msb w r) cf) else None))
  | SHR => let r := a / 2 ^ c in
      Some (r, flags_of w r (if c <? n then Some (Z.testbit a (c - 1)) else None) (if c =? 1 then Some (msb w a) else None))
  | SAR => let r := trunc w (sgn w a / 2 ^ c) in
      Some (r, flags_of w r (Some (Z.testbit (sgn w a) (c - 1))) (if c =? 1 then Some false else None))
  | ROL => let k := c mod n in
      let r := trunc w (a * 2 ^ k + a / 2 ^ (n - k)) in
      Some (r, keep (if c =? 1 then Some (xorb (msb w r) (Z.testbit r 0)) else None) (Z.testbit r 0))
  | ROR => let k := c mod n in
      let r := trunc w (a * 2 ^ (n - k) + a / 2 ^ k) in
      Some (r, keep (if c =? 1 then Some (xorb (msb w r) (Z.testbit r (n - 2))) else None) (msb w r))
  | RCL | RCR => obind (f_cf f) (fun cf =>
      let k := match o with RCL => c mod (n + 1) | _ => n + 1 - c mod (n + 1) end in
      let x := a + Z.b2z cf * 2 ^ n in
      let r := (x * 2 ^ k + x / 2 ^ (n + 1 - k)) mod 2 ^ (n + 1) in
      Some (r mod 2 ^ n, keep (if c =? 1 then Some (xorb (msb w match o with RCL => r | _ => a end) match o with RCL => Z.testbit r n | _ => cf end) else None) (Z.testbit r n)))
  end.

(** Condition codes (SDM vol. 2 B.1.4.7). *)
Definition cond (cc : Z) (f : flags) : option bool :=
  let pos :=
    match cc / 2 with
    | 0 => f_of f
    | 1 => f_cf f
    | 2 => f_zf f
    | 3 => obind (f_cf f) (fun c => obind (f_zf f) (fun z => Some (c || z)))
    | 4 => f_sf f
    | 5 => f_pf f
    | 6 => obind (f_sf f) (fun s => obind (f_of f) (fun o => Some (xorb s o)))
    | 7 => obind (f_zf f) (fun z => obind (f_sf f) (fun s => obind (f_of f) (fun o => Some (z || xorb s o))))
    | _ => None
    end in
  if Z.odd cc then option_map negb pos else pos.

(** ** Bit counts *)
Fixpoint ones (n : nat) (v : Z) : Z := match n with O => 0 | S k => Z.b2z (Z.testbit v (Z.of_nat k)) + ones k v end.
(** Zeros above the highest set bit among the low [n] bits, and below the lowest. *)
Fixpoint leading (n : nat) (v : Z) : Z := match n with O => 0 | S k => if Z.testbit v (Z.of_nat k) then 0 else 1 + leading k v end.
Fixpoint trailing (n : nat) (v : Z) : Z := match n with O => 0 | S k => if Z.odd v then 0 else 1 + trailing k (v / 2) end.
Definition nbits (w : width) : nat := Z.to_nat (bits w).

(** ** Stack *)
Definition rsp (st : mach) : Z := regs st 4.
Definition push (v : Z) (st : mach) : option mach :=
  store 8 (u64 (rsp st - 8)) v (set_regs (upd (regs st) 4 (u64 (rsp st - 8))) st).
Definition pop (st : mach) : option (Z * mach) :=
  obind (load 8 (rsp st) st) (fun v => Some (v, set_regs (upd (regs st) 4 (u64 (rsp st + 8))) st)).

(** rdx:rax *)
Definition wide (w : width) (st : mach) : Z := trunc w (regs st 2) * 2 ^ bits w + trunc w (regs st 0).
Definition put_wide (w : width) (hi lo : Z) (st : mach) : mach := put_reg w 2 hi (put_reg w 0 lo st).
Definition do_unary (o : unary) (w : width) (next : Z) (x : operand) (st : mach) : option mach :=
  obind (get w next st x) (fun a =>
  match o with
  | NOT => put w next x (2 ^ bits w - 1 - a) st
  | NEG => let (r, f) := sub_with w 0 a 0 in put w next x r (set_fl f st)
  | INC => let (r, f) := add_with w a 1 0 in put w next x r (set_fl (mkFlags (f_cf (fl st)) (f_pf f) (f_zf f) (f_sf f) (f_of f)) st)
  | DEC => let (r, f) := sub_with w a 1 0 in put w next x r (set_fl (mkFlags (f_cf (fl st)) (f_pf f) (f_zf f) (f_sf f) (f_of f)) st)
  | MUL | IMUL1 | DIV | IDIV =>
      match w with W8 => None | _ =>
        match o with
        | MUL => let p := trunc w (regs st 0) * a in
            let big := Some (negb (p / 2 ^ bits w =? 0)) in
            Some (set_fl (mkFlags big None None None big) (put_wide w (p / 2 ^ bits w) p st))
        | IMUL1 => let p := sgn w (regs st 0) * sgn w a in
            let big := Some (negb (p =? sgn w p)) in
            Some (set_fl (mkFlags big None None None big) (put_wide w (p / 2 ^ bits w) p st))
        | DIV =>
            if a =? 0 then None
            else if 2 ^ bits w <=? wide w st / a then None
            else Some (set_fl no_flags (put_wide w (wide w st mod a) (wide w st / a) st))
        | _ =>
            let d := sgn w a in
            let n := signed (2 ^ (2 * bits w)) (wide w st) in
            if d =? 0 then None
            else if negb (Z.quot n d =? sgn w (Z.quot n d)) then None
            else Some (set_fl no_flags (put_wide w (Z.rem n d) (Z.quot n d) st))
        end
      end
  end).

(** ** Exchange.  A memory operand is written first, while its address is still that of
    the old registers; exchanging all of a register with itself changes nothing. *)
Definition weq (a b : width) : bool := bits a =? bits b.
Definition key (w : width) (o : operand) : option Z :=
  match o with
  | OMem _ => Some (-1)
  | OReg w' n => if weq w w' && (0 <=? n) then Some (2 * n) else None
  | OHi n => if 0 <=? n then Some (2 * n + 1) else None
  | _ => None
  end.
Definition do_xchg (w : width) (next : Z) (x y : operand) (st : mach) : option mach :=
  obind (key w x) (fun kx => obind (key w y) (fun ky =>
  obind (get w next st x) (fun a => obind (get w next st y) (fun b =>
    if kx =? ky then
      match x, w with
      | OMem _, _ => None
      | _, W64 => Some st
      | _, _ => put w next x a st
      end
    else if kx <? ky then obind (put w next x b st) (put w next y a)
    else obind (put w next y a st) (put w next x b))))).

(** ** xmm registers *)
Definition lo64 (v : Z) : Z := v mod 2 ^ 64.
Definition put_xmm (n v : Z) (st : mach) : mach := set_xmms (upd (xmms st) n v) st.
(** Replace the low quadword. *)
Definition merge_xmm (n v : Z) (st : mach) : mach := put_xmm n (xmms st n - lo64 (xmms st n) + lo64 v) st.
(** 16-byte operand of a packed instruction; in memory it must be aligned. *)
Definition get128 (next : Z) (st : mach) (o : operand) : option Z :=
  match o with
  | OXmm n => Some (xmms st n)
  | OMem a => if ea (regs st) next a mod 16 =? 0 then load 16 (ea (regs st) next a) st else None
  | _ => None
  end.
Definition get_xm (w : width) (next : Z) (st : mach) (o : operand) : option Z :=
  match o with OXmm n => Some (trunc w (xmms st n)) | _ => get w next st o end.

(** ** Floating point *)
Definition do_fp (k : fpk) (a b : Z) : option Z :=
  match k with
  | FADD => Some (f64_add a b)
  | FSUB => Some (f64_sub a b)
  | FMUL => Some (f64_mul a b)
  | FDIV => Some (f64_div a b)
  | FMIN => Some (f64_min a b)
  | FMAX => Some (f64_max a b)
  | FSQRT => Some (f64_sqrt b)
  | _ => None
  end.
Definition hi64 (v : Z) : Z := v / 2 ^ 64.
Definition pair64 (hi lo : Z) : Z := hi * 2 ^ 64 + lo.
Definition ucomi_flags (r : option comparison) : flags :=
  let f z p c := mkFlags (Some c) (Some p) (Some z) (Some false) (Some false) in
  match r with
  | None => f true true true
  | Some Gt => f false false false
  | Some Lt => f false false true
  | Some Eq => f true false false
  end.

(** ** Instructions *)
Definition fall (r : option mach) : option (mach * ctl) := option_map (fun st => (st, Fall)) r.
Definition x86 (x : ins) (next : Z) (st : mach) : option (mach * ctl) :=
  let w := i_width x in
  match i_mnem x, i_ops x with
  | Mov, [d; s] => fall (obind (get w next st s) (fun v => put w next d v st))
  | Movzx ws, [d; s] => fall (obind (get ws next st s) (fun v => put w next d v st))
  | Movsx ws, [d; s] => fall (obind (get ws next st s) (fun v => put w next d (sgn ws v) st))
  | Alu o, [d; s] =>
      fall (obind (get w next st d) (fun a => obind (get w next st s) (fun b =>
        obind (do_alu o w a b st) (fun rf =>
          match o with CMP => Some (set_fl (snd rf) st) | _ => put w next d (fst rf) (set_fl (snd rf) st) end))))
  | Test, [d; s] =>
      fall (obind (get w next st d) (fun a => obind (get w next st s) (fun b =>
        Some (set_fl (snd (logic w (Z.land a b))) st))))
  | Shift o, [d; s] =>
      fall (obind (get w next st d) (fun a => obind (get W8 next st s) (fun c =>
        obind (do_shift o w a (mask w c) (fl st)) (fun rf => put w next d (fst rf) (set_fl (snd rf) st)))))
  | Unary o, [d] => fall (do_unary o w next d st)
  | Xchg, [a; b] => fall (do_xchg w next a b st)
  | Imul, [d; s] =>
      fall (obind (get w next st d) (fun a => obind (get w next st s) (fun b =>
        let p := sgn w a * sgn w b in
        let big := Some (negb (p =? sgn w p)) in
        put w next d p (set_fl (mkFlags big None None None big) st))))
  | Lea, [d; OMem a] => fall (put w next d (ea (regs st) next a) st)
  | Push, [s] => fall (obind (get w next st s) (fun v => push v st))
  | Pop, [d] => fall (obind (pop st) (fun r => put w next d (fst r) (snd r)))
  | SignRdx, [] => Some (put_reg w 2 (if msb w (regs st 0) then 2 ^ bits w - 1 else 0) st, Fall)
  | Setcc cc, [d] => fall (obind (cond cc (fl st)) (fun b => put W8 next d (Z.b2z b) st))
  | Cmovcc cc, [d; s] =>
      fall (obind (cond cc (fl st)) (fun c => obind (get w next st d) (fun a => obind (get w next st s) (fun b =>
        put w next d (if c then b else a) st))))
  | Jcc cc, [ORel _] => obind (cond cc (fl st)) (fun c => Some (st, if c then Taken else Fall))
  | Jmp, [ORel _] => Some (st, Taken)
  | Jmp, [o] => obind (get W64 next st o) (fun a => Some (st, Jump a))
  | Call, [ORel _] => obind (push next st) (fun st' => Some (st', Taken))
  | Call, [o] => obind (get W64 next st o) (fun a => obind (push next st) (fun st' => Some (st', Jump a)))
  | Ret, [] => obind (pop st) (fun r => Some (snd r, Jump (fst r)))
  | Leave, [] =>
      fall (obind (pop (set_regs (upd (regs st) 4 (regs st 5)) st)) (fun r => Some (set_regs (upd (regs (snd r)) 5 (fst r)) (snd r))))
  | Nop, [] => Some (st, Fall)
  | Popcnt, [d; s] =>
      fall (obind (get w next st s) (fun v =>
        put w next d (ones (nbits w) v) (set_fl (mkFlags (Some false) (Some false) (Some (v =? 0)) (Some false) (Some false)) st)))
  | Lzcnt, [d; s] =>
      fall (obind (get w next st s) (fun v =>
        put w next d (leading (nbits w) v) (set_fl (mkFlags (Some (v =? 0)) None (Some (leading (nbits w) v =? 0)) None None) st)))
  | Tzcnt, [d; s] =>
      fall (obind (get w next st s) (fun v =>
        put w next d (trailing (nbits w) v) (set_fl (mkFlags (Some (v =? 0)) None (Some (trailing (nbits w) v =? 0)) None None) st)))
  | MovX, [OXmm n; s] => fall (obind (get_xm w next st s) (fun v => Some (put_xmm n v st)))
  | MovX, [d; OXmm n] => fall (put w next d (trunc w (xmms st n)) st)
  | MovF SD, [OXmm n; OXmm k] => Some (merge_xmm n (xmms st k) st, Fall)
  | MovF SD, [OXmm n; s] => fall (obind (get W64 next st s) (fun v => Some (put_xmm n v st)))
  | MovF SD, [d; OXmm n] => fall (put W64 next d (lo64 (xmms st n)) st)
  | Fp FAND (PS | PD), [OXmm n; s] => fall (obind (get128 next st s) (fun v => Some (put_xmm n (Z.land (xmms st n) v) st)))
  | Fp FXOR (PS | PD), [OXmm n; s] => fall (obind (get128 next st s) (fun v => Some (put_xmm n (Z.lxor (xmms st n) v) st)))
  | Fp k SD, [OXmm n; s] =>
      fall (obind (get_xm W64 next st s) (fun v => obind (do_fp k (lo64 (xmms st n)) v) (fun r => Some (merge_xmm n r st))))
  | Fp k PD, [OXmm n; s] =>
      fall (obind (get128 next st s) (fun v => obind (do_fp k (hi64 (xmms st n)) (hi64 v)) (fun h =>
        obind (do_fp k (lo64 (xmms st n)) (lo64 v)) (fun l => Some (put_xmm n (pair64 h l) st)))))
  | Ucomi SD, [OXmm n; s] =>
      fall (obind (get_xm W64 next st s) (fun v => Some (set_fl (ucomi_flags (f64_cmp (lo64 (xmms st n)) v)) st)))
  | Cvtsi2f SD, [OXmm n; s] => fall (obind (get w next st s) (fun v => Some (merge_xmm n (f64_of_int (sgn w v)) st)))
  | Cvttf2si SD, [d; s] => fall (obind (get_xm W64 next st s) (fun v => put w next d (f64_to_int (bits w) v) st))
  | Roundpd, [OXmm n; s; OImm i] =>
      fall (obind (get128 next st s) (fun v => Some (put_xmm n (pair64 (f64_round i (hi64 v)) (f64_round i (lo64 v))) st)))
  | _, _ => None
  end.

(** ** The machine: it fetches from the memory it works on. *)
Definition cpu_step (pc : Z) (st : mach) : option (Z * mach) := mstep mach x86 (mm st) pc st.
Fixpoint cpu (n : nat) (pc : Z) (st : mach) : option (Z * mach) :=
  match n with
  | O => Some (pc, st)
  | S n' => match cpu_step pc st with Some (pc', st') => cpu n' pc' st' | None => None end
  end.
(** The bytes from [a] up to [b] are those of [m]. *)
Definition holds (m : Z -> Z) (a b : Z) (st : mach) : Prop := forall x, a <= x < b -> mm st x = m x.
(** A state the hardware can be in. *)
Definition wf (st : mach) : Prop :=
  (forall n, 0 <= n < 16 -> 0 <= regs st n < 2 ^ 64) /\ (forall n, 0 <= n < 16 -> 0 <= xmms st n < 2 ^ 128) /\ (forall a, 0 <= mm st a < 256).

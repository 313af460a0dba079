open Spec
let rec pos_of_int n = if n = 1 then XH else if n land 1 = 0 then XO (pos_of_int (n lsr 1)) else XI (pos_of_int (n lsr 1))
let z_of_int n = if n = 0 then Z0 else if n > 0 then Zpos (pos_of_int n) else Zneg (pos_of_int (-n))
(* immediates of 64 bits fit OCaml's 63-bit int only modulo 2^63: print through Int64 *)
let rec i64_of_pos = function XH -> 1L | XO p -> Int64.mul 2L (i64_of_pos p) | XI p -> Int64.add 1L (Int64.mul 2L (i64_of_pos p))
let i64 = function Z0 -> 0L | Zpos p -> i64_of_pos p | Zneg p -> Int64.neg (i64_of_pos p)
let zs z = Int64.to_string (i64 z)
let w = function W8 -> "8" | W16 -> "16" | W32 -> "32" | W64 -> "64"
let op = function
  | OReg (a, n) -> "r" ^ w a ^ ":" ^ zs n
  | OHi n -> "h:" ^ zs n
  | OXmm n -> "x:" ^ zs n
  | OImm v -> "i:" ^ zs v
  | ORel d -> "rel:" ^ zs d
  | OMem a -> "m:" ^ (match a.m_base with None -> "-" | Some BRip -> "rip" | Some (BReg n) -> zs n) ^ ":" ^
      (match a.m_index with None -> "-:1" | Some (i, s) -> zs i ^ ":" ^ zs s) ^ ":" ^ zs a.m_disp
let alu = function ADD->"add"|OR->"or"|ADC->"adc"|SBB->"sbb"|AND->"and"|SUB->"sub"|XOR->"xor"|CMP->"cmp"
let shf = function ROL->"rol"|ROR->"ror"|RCL->"rcl"|RCR->"rcr"|SHL->"shl"|SHR->"shr"|SAR->"sar"
let un = function NOT->"not"|NEG->"neg"|MUL->"mul"|IMUL1->"imul1"|DIV->"div"|IDIV->"idiv"|INC->"inc"|DEC->"dec"
let fk = function FSQRT->"sqrt"|FAND->"and"|FXOR->"xor"|FADD->"add"|FMUL->"mul"|FSUB->"sub"|FMIN->"min"|FDIV->"div"|FMAX->"max"
let ft = function PS->"ps"|PD->"pd"|SS->"ss"|SD->"sd"
let cc z = [|"o";"no";"b";"ae";"e";"ne";"be";"a";"s";"ns";"p";"np";"l";"ge";"le";"g"|].(Int64.to_int (i64 z))
let mn = function
  | Alu o -> alu o | Shift o -> shf o | Unary o -> un o
  | Mov -> "mov" | Movzx s -> "movzx" ^ w s | Movsx s -> "movsx" ^ w s | Xchg -> "xchg" | Test -> "test" | Imul -> "imul" | Lea -> "lea" | Push -> "push" | Pop -> "pop"
  | SignRdx -> "signrdx" | Setcc c -> "set" ^ cc c | Cmovcc c -> "cmov" ^ cc c | Jcc c -> "j" ^ cc c | Jmp -> "jmp" | Call -> "call" | Ret -> "ret" | Leave -> "leave"
  | Syscall -> "syscall" | Int3 -> "int3" | Nop -> "nop" | Popcnt -> "popcnt" | Lzcnt -> "lzcnt" | Tzcnt -> "tzcnt" | Bsf -> "bsf" | Bsr -> "bsr"
  | MovF t -> "movf" ^ ft t | MovX -> "movx" | Cvtsi2f t -> "cvtsi2" ^ ft t | Cvttf2si t -> "cvtt" ^ ft t ^ "2si" | Ucomi t -> "ucomi" ^ ft t | Fp (k, t) -> fk k ^ ft t | Roundpd -> "roundpd"
let () =
  try while true do
    let l = input_line stdin in
    let bs = List.init (String.length l / 2) (fun i -> z_of_int (int_of_string ("0x" ^ String.sub l (2*i) 2))) in
    match decode bs with
    | None -> print_endline "-"
    | Some (x, rest) -> Printf.printf "%d|%s|%s|%s\n" (List.length bs - List.length rest) (mn x.i_mnem) (w x.i_width) (String.concat ";" (List.map op x.i_ops))
  done with End_of_file -> ()

(** What a block leaves behind when one of its expressions does not return. *)
From Verif Require Import Base ModelMem ModelSyntax ModelMacro SpecX86 SpecAsm SpecState SpecHist.
Local Open Scope Z_scope.

(** Instructions that begin with a prefix, and the prefix (SDM vol. 2: operand size, mandatory prefixes). *)
Definition word_prefix (z : opsize) : option Z := match z with WORD => Some 0x66 | _ => None end.
Definition prefix_of (i : inst) : option Z :=
  match i with
  | IMovw _ _ => Some 0x66
  | IAdd z _ _ | IOr z _ _ | IAdc z _ _ | ISbb z _ _ | IAnd z _ _ | ISub z _ _ | IXor z _ _ | ICmp z _ _ | ICmovcc z _ _ _ => word_prefix z
  | IMovq (MovXmm _) (MovXmm _) | IMovq (MovXmm _) (MovInd _) => Some 0xf3
  | IMovq (MovXmm _) _ | IMovq _ (MovXmm _) => Some 0x66
  | IAndpd _ _ | IXorpd _ _ | ISqrtpd _ _ | IRoundpd _ _ _ | IUComIsd _ _ => Some 0x66
  | IMovsd _ _ | IAddsd _ _ | ISubsd _ _ | IMulsd _ _ | IDivsd _ _ | IMinsd _ _ | IMaxsd _ _ | ISqrtsd _ _ | ICvtsi2sdq _ _ | ICvttsd2siq _ _ => Some 0xf2
  | ITzcnt _ _ _ | ILzcnt _ _ _ | IPopcnt _ _ _ => Some 0xf3
  | _ => None
  end.
(** What is written of a statement [i] whose expression leaves: nothing, or its prefix, or all of a
    roundpd but its last byte, the immediate. *)
Inductive left_by (lenv : string -> label) (i : inst) (s s' : jit) : Prop :=
| left_nothing (_ : s' = s)
| left_prefix p (_ : prefix_of i = Some p) (_ : step (OEmit [p]) s = Ok None s')
| left_mode x a e (_ : i = IRoundpd x a e)
    (_ : exists v b, forall ev r m, 0 <= m < 256 -> step (OAsm ev lenv r [IRoundpd (ELit v) b (ELit m)]) s = step (OEmit [m]) s').
(** Expressions that never leave: those that would give 0. *)
Definition staying {W} (ev : list tok -> env -> W -> option Z * W) (ts : list tok) (r : env) (w : W) : Z * W :=
  match ev ts r w with (Some v, w') => (v, w') | (None, w') => (0, w') end.
(** The expressions evaluated, recorded. *)
Definition recorded (ev : list tok -> env -> option Z) (ts : list tok) (r : env) (w : list (list tok)) : option Z * list (list tok) := (ev ts r, (w ++ [ts])%list).

(** The code generator of the README (README.md 283-368): the methods of VM, each a call of monoasm! with the text
    written there, and the shape of the function it is used for. *)
From Verif Require Import Base ModelMem ModelSyntax ModelMacro SpecX86 SpecState SpecHist ModelParse DemoText Fibo SpecVm.
Local Notation length := List.length.
Local Open Scope string_scope.
Local Open Scope list_scope.
Local Open Scope Z_scope.

(** 319-323. *)
Definition vm_set_local (reg offset : Z) : op := text [("reg", reg); ("offset", offset)] [] "movq [rbp-(offset)], R(reg + 12);".
(** 361-367. *)
Definition vm_puts (reg putint : Z) : op :=
  text [("reg", reg); ("PUTINT", putint)] [] "movq rdi, R(reg + 12); movq rax, (monoasm::test::PUTINT as u64); call rax;".
(** 311-359 set_int .. call_arg1; the result, the jumps and the labels are written without a method in the README (237-239, 247-249, 270). *)
Definition vm_op (i : vmi) : op :=
  match i with
  | VInt k v => vm_set_int k v
  | VGet k o => vm_get_local k o
  | VSet k o => vm_set_local k o
  | VSub d s => vm_sub d s
  | VAdd d s => vm_add d s
  | VCmp d s => vm_cmp d s
  | VJne l => vm_jne l
  | VJmp l => text [] [("label", l)] "jmp label;"
  | VMark l => text [] [("label", l)] "label:"
  | VCall f a r => vm_call_arg1 f a r
  | VConst v => text [("val", v)] [] "movq rax, (val);"
  | VResult k => text [("reg", k)] [] "movq rax, R(reg + 12);"
  | VPuts k p => vm_puts k p
  end.
(** 217-228 and 273-277: label, prologue, saved registers, argument; body; end. *)
Definition vm_fun (f : vfun) : list op :=
  [OBind (v_name f); vm_prologue (v_locals f);
   text [("x_ofs", v_arg f)] [] "pushq r12; pushq r13; pushq r14; pushq r15; movq [rbp-(x_ofs)], rdi;"] ++
  map vm_op (v_body f) ++
  [text [] [("end", v_end f)] "end: popq r15; popq r14; popq r13; popq r12;"; vm_epilogue].
(** 209-278: jit.label() for every label, then the functions, finalize. *)
Definition vm_jit (labels : nat) (fs : list vfun) : list op := repeat OLabel labels ++ flat_map vm_fun fs ++ [OFinalize].
(** All the calls return. *)
Fixpoint calls (ops : list op) (s : jit) : option jit :=
  match ops with [] => Some s | o :: r => match step o s with Ok _ s' => calls r s' | Panic _ _ => None end end.

(** The function of the README (README.md, section "constant data" to the end): the
    program as text, its image. *)
From Verif Require Import Base ModelMem ModelEnc ModelSyntax ModelMacro SpecX86 SpecAsm SpecState SpecHist EncDec Emit Trace MemInv MemHist MemRun SpecProg ProgSim ModelParse DemoText SpecMachine MachLib.
Local Notation length := List.length.
Local Open Scope string_scope.
Local Open Scope list_scope.
Local Open Scope Z_scope.

Fixpoint lookup {A} (d : A) (l : list (string * A)) (x : string) : A :=
  match l with [] => d | (y, v) :: r => if String.eqb x y then v else lookup d r x end.
(** monoasm!{ &mut jit, text } where the variables and labels in scope are as given. *)
Definition text (vars : list (string * Z)) (labs : list (string * label)) (t : string) : op :=
  OAsm rust_ev (lookup 0%nat labs) (lookup 0 vars) (stmts t).

(** impl VM *)
Definition vm_prologue (locals : Z) : op := text [("locals", locals)] [] "pushq rbp; movq rbp, rsp; subq rsp, ((locals + locals % 2)*8);".
Definition vm_epilogue : op := text [] [] "movq rsp, rbp; popq rbp; ret;".
Definition vm_set_int (reg val : Z) : op := text [("reg", reg); ("val", val)] [] "movq R(reg + 12), (val as u64);".
Definition vm_get_local (reg offset : Z) : op := text [("reg", reg); ("offset", offset)] [] "movq R(reg + 12), [rbp-(offset)];".
Definition vm_sub (dest_reg src_reg : Z) : op := text [("dest_reg", dest_reg); ("src_reg", src_reg)] [] "subq R(dest_reg + 12), R(src_reg + 12);".
Definition vm_add (dest_reg src_reg : Z) : op := text [("dest_reg", dest_reg); ("src_reg", src_reg)] [] "addq R(dest_reg + 12), R(src_reg + 12);".
Definition vm_cmp (dest_reg src_reg : Z) : op := text [("dest_reg", dest_reg); ("src_reg", src_reg)] [] "cmpq R(dest_reg + 12), R(src_reg + 12);".
Definition vm_jne (dest : label) : op := text [] [("dest", dest)] "jne dest;".
Definition vm_call_arg1 (dest : label) (arg0_reg ret_reg : Z) : op :=
  text [("arg0_reg", arg0_reg); ("ret_reg", ret_reg)] [("dest", dest)] "movq rdi, R(arg0_reg + 12); call dest; movq R(ret_reg + 12), rax;".

(** fn jit() *)
Definition x_ofs : Z := 8.
Definition main (t : string) : op := text [("x_ofs", x_ofs)] [("fibo", 0%nat); ("label0", 1%nat); ("label1", 2%nat); ("end", 3%nat)] t.
Definition fibo_jit : list op :=
  [OLabel; OLabel; OLabel; OLabel; OBind 0%nat;
   vm_prologue 1;
   main "pushq r12; pushq r13; pushq r14; pushq r15; movq [rbp-(x_ofs)], rdi;";
   vm_get_local 0 x_ofs; vm_set_int 1 0; vm_cmp 0 1; vm_jne 1%nat;
   main "movq rax, 0; jmp end; label0:";
   vm_set_int 1 1; vm_cmp 0 1; vm_jne 2%nat;
   main "movq rax, 1; jmp end; label1:";
   vm_get_local 0 x_ofs; vm_set_int 1 1; vm_sub 0 1; vm_call_arg1 0%nat 0 0;
   vm_get_local 1 x_ofs; vm_set_int 2 2; vm_sub 1 2; vm_call_arg1 0%nat 1 1;
   vm_add 0 1;
   main "movq rax, R(12);";
   main "end: popq r15; popq r14; popq r13; popq r12;";
   vm_epilogue;
   OFinalize].

(** ** The image *)
Definition table_from := fix go (n : nat) (k : Z) (bs : list Z) : list (Z * Z * ins) :=
  match n with
  | O => []
  | S n' => match decode bs with
            | Some (x, r) => let len := Z.of_nat (length bs - length r) in (k, len, x) :: go n' (k + len) r
            | None => []
            end
  end.
Definition fibo_image : list Z := Eval vm_compute in
  match run fibo_jit (jit_new 0 (fun _ => 0)) with Some s => bytes s P0 0 167 | None => [] end.
Definition fibo_table : list (Z * Z * ins) := Eval vm_compute in table_from 60 0 fibo_image.
Fixpoint find_ins (k : Z) (t : list (Z * Z * ins)) : option (Z * ins) :=
  match t with [] => None | (a, n, x) :: r => if a =? k then Some (n, x) else find_ins k r end.
Lemma fibo_insns : Forall (fun e => insn_at fibo_image (fst (fst e)) (snd (fst e)) (snd e)) fibo_table.
Proof. repeat constructor; cbn [fst snd]; try (intro; vm_compute; reflexivity); try (vm_compute; intro; discriminate). Qed.
Lemma find_in k : forall t n x, find_ins k t = Some (n, x) -> In (k, n, x) t.
Proof.
  induction t as [|[[a n'] x'] t IH]; intros n x H; [discriminate|]. cbn [find_ins] in H. destruct (a =? k) eqn:E; [|right; apply IH, H].
  apply Z.eqb_eq in E. inversion H. subst. left. reflexivity.
Qed.
Lemma fibo_at k n x : find_ins k fibo_table = Some (n, x) -> insn_at fibo_image k n x.
Proof. intro H. apply find_in in H. exact (proj1 (Forall_forall _ _) fibo_insns _ H). Qed.

(** A two-pass assembler: the first pass finds where the statements and their labels are, the second writes the bytes. *)
From Verif Require Import Base ModelMem ModelEnc ModelSyntax ModelMacro SpecX86 SpecAsm SpecGas.
Local Open Scope list_scope.
Local Open Scope Z_scope.

Section Two.
(** The values of the expressions. *)
Variable val : expr -> Z.
(** The bytes of a statement; [rel]: the distance from its end to each label. *)
Definition stmt_code (rel : string -> Z) (i : inst) : option (list Z) :=
  match i with
  | ILabel _ => Some []
  | IF64 v | II64 v => Some (le 8 v)
  | _ => match denote val rel i with
         | Some x => let y := count_written val i x in match long_form y with Some l => Some l | None => gas y end
         | None => None
         end
  end.
(** Its size; distances have four bytes whatever they are. *)
Definition size (i : inst) : Z := match stmt_code (fun _ => 0) i with Some bs => Z.of_nat (List.length bs) | None => 0 end.
(** First pass: the address of a label of a block that starts at [a]. *)
Fixpoint symbol (a : Z) (body : list inst) (x : string) : option Z :=
  match body with
  | [] => None
  | i :: rest => match i with
                 | ILabel y => if String.eqb x y then Some a else symbol a rest x
                 | _ => symbol (a + size i) rest x
                 end
  end.
(** Second pass: [sym] gives the address of every label. *)
Fixpoint written (sym : string -> Z) (a : Z) (body : list inst) : option (list Z) :=
  match body with
  | [] => Some []
  | i :: rest =>
      let b := a + size i in
      match stmt_code (fun x => sym x - b) i, written sym b rest with
      | Some u, Some v => Some (u ++ v)
      | _, _ => None
      end
  end.
(** Both; [ext] gives the addresses of the labels that are not defined in the block. *)
Definition two_pass (ext : string -> Z) (a : Z) (body : list inst) : option (list Z) :=
  written (fun x => match symbol a body x with Some v => v | None => ext x end) a body.
End Two.

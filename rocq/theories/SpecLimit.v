(** How much room statements take. *)
From Verif Require Import Base ModelMem ModelSyntax SpecAsm SpecState.
Local Open Scope list_scope.
Local Open Scope Z_scope.

(** Statements that have one size: labels, data (dq), jumps and calls of labels, calls of addresses, instructions without operands. *)
Definition fixed (i : inst) : option Z :=
  match i with
  | ILabel _ => Some 0
  | IF64 _ | II64 _ => Some 8
  | IJmp (DestRel _) | ICall (DestRel _) | ICall (DestDisp _) => Some 5
  | IJcc _ _ => Some 6
  | IRet | ILeave | IInt3 | ICdq => Some 1
  | ICqo | ISyscall => Some 2
  | _ => None
  end.
(** At least and at most, in bytes. *)
Definition least (i : inst) : Z := match fixed i with Some n => n | None => 1 end.
Definition most (i : inst) : Z := match fixed i with Some n => n | None => 12 end.
Definition sum (f : inst -> Z) (body : list inst) : Z := fold_right (fun i n => f i + n) 0 body.

(** The virtual machine of the README (README.md, "// Virtual machine codes"): what its instructions mean, without
    reference to machine code.  A program is a list of functions of one argument; a function has registers %0..%3,
    local variables named by their offset 8, 16, .., a result, and the outcome of the last subtraction, addition or
    comparison.  All values are u64; registers, variables and so on that nothing has been put in cannot be used.
    A program can call functions outside (puts); such a call is observed. *)
From Verif Require Import Base.
Local Open Scope list_scope.
Local Open Scope Z_scope.

Inductive vmi :=
| VInt (k v : Z)                 (* %k <- v *)
| VGet (k o : Z)                 (* %k <- variable o *)
| VSet (k o : Z)                 (* variable o <- %k *)
| VSub (d s : Z) | VAdd (d s : Z) | VCmp (d s : Z)
| VJne (l : nat) | VJmp (l : nat) | VMark (l : nat)
| VCall (f : nat) (a r : Z)      (* %r <- f(%a) *)
| VConst (v : Z)                 (* the result is v *)
| VResult (k : Z)                (* the result is %k *)
| VPuts (k p : Z).               (* the function at address p is called with %k *)
(** A function: its label, the label of its end, the number of local variables, the variable that holds the argument. *)
Record vfun := mkFun { v_name : nat; v_end : nat; v_locals : Z; v_arg : Z; v_body : list vmi }.
Record vst := mkVst { v_reg : Z -> option Z; v_loc : Z -> option Z; v_res : option Z; v_eq : option bool }.
Definition put (m : Z -> option Z) (k v : Z) : Z -> option Z := fun x => if x =? k then Some v else m x.
Definition set_reg (k v : Z) (st : vst) : vst := mkVst (put (v_reg st) k v) (v_loc st) (v_res st) (v_eq st).
Definition set_loc (o v : Z) (st : vst) : vst := mkVst (v_reg st) (put (v_loc st) o v) (v_res st) (v_eq st).
Definition set_res (v : Z) (st : vst) : vst := mkVst (v_reg st) (v_loc st) (Some v) (v_eq st).
Definition set_eq (e : option bool) (st : vst) : vst := mkVst (v_reg st) (v_loc st) (v_res st) e.
Definition forget (st : vst) : vst := mkVst (v_reg st) (v_loc st) None None.
Definition start (f : vfun) (x : Z) : vst := mkVst (fun _ => None) (put (fun _ => None) (v_arg f) x) None None.

Definition find_fun (fs : list vfun) (g : nat) : option vfun := find (fun f => Nat.eqb (v_name f) g) fs.
Fixpoint find_mark (l : nat) (code : list vmi) : option (list vmi) :=
  match code with
  | [] => None
  | VMark k :: c => if Nat.eqb k l then Some c else find_mark l c
  | _ :: c => find_mark l c
  end.
(** The stack a function needs for itself: return address of a call, saved registers, variables. *)
Definition frame (f : vfun) : Z := 48 + 8 * (v_locals f + v_locals f mod 2).

(** What is observed before the rest. *)
Definition seen (xs : list (Z * Z)) (r : option (list (Z * Z) * Z)) : option (list (Z * Z) * Z) :=
  match r with Some (out, v) => Some (xs ++ out, v) | None => None end.
Definition ended (st : vst) : option (list (Z * Z) * Z) := match v_res st with Some v => Some ([], v) | None => None end.

Section Run.
Variables (fs : list vfun) (hosts : Z -> bool) (need : Z).      (* hosts: where functions outside are; need: the stack they need *)
(** [n] bounds the steps, [room] is the stack that is left for the function and those it calls. *)
Fixpoint vrun (n : nat) (room : Z) (f : vfun) (code : list vmi) (st : vst) : option (list (Z * Z) * Z) :=
  match n with
  | O => None
  | S n =>
      let goto l := if Nat.eqb l (v_end f) then ended st else match find_mark l (v_body f) with Some c => vrun n room f c st | None => None end in
      match code with
      | [] => ended st
      | VInt k v :: c => vrun n room f c (set_reg k (u64 v) st)
      | VGet k o :: c => match v_loc st o with Some x => vrun n room f c (set_reg k x st) | None => None end
      | VSet k o :: c => match v_reg st k with Some x => vrun n room f c (set_loc o x st) | None => None end
      | VSub d s :: c =>
          match v_reg st d, v_reg st s with
          | Some x, Some y => vrun n room f c (set_eq (Some (u64 (x - y) =? 0)) (set_reg d (u64 (x - y)) st))
          | _, _ => None
          end
      | VAdd d s :: c =>
          match v_reg st d, v_reg st s with
          | Some x, Some y => vrun n room f c (set_eq (Some (u64 (x + y) =? 0)) (set_reg d (u64 (x + y)) st))
          | _, _ => None
          end
      | VCmp d s :: c =>
          match v_reg st d, v_reg st s with Some x, Some y => vrun n room f c (set_eq (Some (x =? y)) st) | _, _ => None end
      | VJne l :: c => match v_eq st with Some true => vrun n room f c st | Some false => goto l | None => None end
      | VJmp l :: _ => goto l
      | VMark _ :: c => vrun n room f c st
      | VCall g a r :: c =>
          match find_fun fs g, v_reg st a with
          | Some h, Some x =>
              let room' := room - frame f in
              match (if frame h <=? room' then vrun n room' h (v_body h) (start h x) else None) with
              | Some (out, y) => seen out (vrun n room f c (set_eq None (set_res y (set_reg r y st))))
              | None => None
              end
          | _, _ => None
          end
      | VConst v :: c => vrun n room f c (set_res (u64 v) st)
      | VResult k :: c => match v_reg st k with Some x => vrun n room f c (set_res x st) | None => None end
      | VPuts k p :: c =>
          match v_reg st k with
          | Some x => if hosts (u64 p) && (need <=? room - frame f) then seen [(u64 p, x)] (vrun n room f c (forget st)) else None
          | None => None
          end
      end
  end.
(** The function called with [x] and [room] bytes of stack makes the calls [out] and returns [y]. *)
Definition prints (room : Z) (f : vfun) (x : Z) (out : list (Z * Z)) (y : Z) : Prop :=
  frame f <= room /\ exists n, vrun n room f (v_body f) (start f x) = Some (out, y).
End Run.
(** The same without functions outside. *)
Definition returns (fs : list vfun) (room : Z) (f : vfun) (x y : Z) : Prop := prints fs (fun _ => false) 0 room f x [] y.

(** Programs: four registers, variables within the frame, every label in its place once; labels are numbers below
    the number of labels. *)
Definition reg_ok (k : Z) : Prop := 0 <= k < 4.
Definition var_ok (f : vfun) (o : Z) : Prop := 8 <= o <= 8 * v_locals f /\ o mod 8 = 0.
Definition marks (code : list vmi) : list nat := flat_map (fun i => match i with VMark l => [l] | _ => [] end) code.
Definition vmi_ok (fs : list vfun) (f : vfun) (i : vmi) : Prop :=
  match i with
  | VInt k _ | VResult k | VPuts k _ => reg_ok k
  | VGet k o | VSet k o => reg_ok k /\ var_ok f o
  | VSub d s | VAdd d s | VCmp d s => reg_ok d /\ reg_ok s
  | VJne l | VJmp l => l = v_end f \/ In l (marks (v_body f))
  | VMark _ | VConst _ => True
  | VCall g a r => In g (map v_name fs) /\ reg_ok a /\ reg_ok r
  end.
Definition labels_of (f : vfun) : list nat := v_name f :: marks (v_body f) ++ [v_end f].
Definition vm_ok (labels : nat) (fs : list vfun) : Prop :=
  NoDup (flat_map labels_of fs) /\ (forall l, In l (flat_map labels_of fs) -> (l < labels)%nat) /\
  forall f, In f fs -> 0 <= v_locals f < 2 ^ 28 - 1 /\ var_ok f (v_arg f) /\ forall i, In i (v_body f) -> vmi_ok fs f i.
(** The statements of the macros of a program. *)
Definition vm_stmts (i : vmi) : Z := match i with VCall _ _ _ | VPuts _ _ => 3 | _ => 1 end.
Definition fun_stmts (f : vfun) : Z := 16 + fold_right Z.add 0 (map vm_stmts (v_body f)).
Definition vm_size (fs : list vfun) : Z := fold_right Z.add 0 (map fun_stmts fs).

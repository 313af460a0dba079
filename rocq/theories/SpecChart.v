(** The place of every label, told from the calls alone, beside the plan of SpecPlan. *)
From Verif Require Import Base ModelMem ModelSyntax ModelMacro SpecX86 SpecAsm SpecState SpecHist SpecProg SpecGas SpecTwo SpecBudget SpecPlan.
Local Open Scope list_scope.
Local Open Scope Z_scope.

(** Where each label is bound; the labels of the constants that wait for each code page and of the data created while each was
    selected; how many labels there are. *)
Record chart := mkChart { spot : label -> option (pid * Z); kept_as : pid -> list label; held_as : pid -> list label; known : nat }.
Definition void : chart := mkChart (fun _ => None) (fun _ => []) (fun _ => []) 0.
Definition mark (l : label) (v : pid * Z) (t : label -> option (pid * Z)) : label -> option (pid * Z) := fun k => if Nat.eqb k l then Some v else t k.
(** The labels of a block that starts at [c] of page [p], with the sizes of the first pass (SpecTwo). *)
Fixpoint block_marks (val : expr -> Z) (lenv : string -> label) (p : pid) (c : Z) (body : list inst) (t : label -> option (pid * Z)) : label -> option (pid * Z) :=
  match body with
  | [] => t
  | ILabel y :: r => block_marks val lenv p c r (mark (lenv y) (p, c) t)
  | i :: r => block_marks val lenv p (c + size val i) r t
  end.
(** The position of the entry of label [l] among entries placed from [c]. *)
Fixpoint entry_at (c : Z) (es : list (Z * Z)) (ls : list label) (l : label) : option Z :=
  match es, ls with
  | (a, n) :: es', k :: ls' => let m := next_multiple a c in if Nat.eqb l k then Some m else entry_at (m + n) es' ls' l
  | _, _ => None
  end.
(** A call, planned from [x]. *)
Definition marks (o : op) (x : plan) (y : chart) : chart :=
  let bound t := mkChart t (kept_as y) (held_as y) (known y) in
  match o with
  | OAsm ev lenv r body => bound (block_marks (eval ev r) lenv (chosen x) (ends x (chosen x)) body (spot y))
  | OBind l => bound (mark l (chosen x, ends x (chosen x)) (spot y))
  | OBindPage k l => match pid_of k with Some q => bound (mark l (q, ends x q) (spot y)) | None => y end
  | OLabel => mkChart (spot y) (kept_as y) (held_as y) (S (known y))
  | OCreate d =>
      let add f := fun q => if pid_eqb q (chosen x) then f q ++ [known y] else f q in
      if is_datum d then mkChart (spot y) (kept_as y) (add (held_as y)) (S (known y)) else mkChart (spot y) (add (kept_as y)) (held_as y) (S (known y))
  | OFinalize =>
      let at_ p es ls l := option_map (pair p) (entry_at (ends x p) es ls l) in
      mkChart (fun l => match at_ P0 (kept x P0) (kept_as y P0) l, at_ P1 (kept x P1) (kept_as y P1) l, at_ P2 (held x P0 ++ held x P1) (held_as y P0 ++ held_as y P1) l with
                        | Some v, _, _ | None, Some v, _ | None, None, Some v => Some v
                        | None, None, None => spot y l
                        end) (fun _ => []) (fun _ => []) (known y)
  | _ => y
  end.
Fixpoint charted (ops : list op) (x : plan) (y : chart) : option chart :=
  match ops with [] => Some y | o :: r => match next o x with Some x' => charted r x' (marks o x y) | None => None end end.
(** The address in an allocation at [b]. *)
Definition place_in (b : Z) (v : pid * Z) : Z := b + pidx (fst v) * PAGE_SIZE + snd v.
(** The chart at a reached state. *)
Definition chart_of (s : jit) : chart :=
  mkChart (loc_of s) (fun p => map snd (constants (pages s p))) (fun p => map snd (data (pages s p))) (List.length (labels s)).
(** The place that the references to label [l] made so far are linked to: where it is at the first finalize that finds it bound. *)
Fixpoint settles (ops : list op) (x : plan) (y : chart) (l : label) : option (pid * Z) :=
  match ops with
  | [] => None
  | o :: r => match next o x with
              | Some x' => let y' := marks o x y in
                           match (if is_finalize o then spot y' l else None) with Some v => Some v | None => settles r x' y' l end
              | None => None
              end
  end.

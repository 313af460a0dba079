(** A plan of a session: where every page ends, call by call, told from the calls alone. *)
From Verif Require Import Base ModelMem ModelSyntax ModelMacro SpecX86 SpecAsm SpecState SpecHist SpecProg SpecGas SpecTwo SpecBudget.
Local Open Scope list_scope.
Local Open Scope Z_scope.

(** The end of each page; alignment and length of the constants that wait for each code page, and of the data created while each was
    selected; the selected page. *)
Record plan := mkPlan { ends : pid -> Z; kept : pid -> list (Z * Z); held : pid -> list (Z * Z); chosen : pid }.
Definition blank : plan := mkPlan (fun _ => 0) (fun _ => []) (fun _ => []) P0.

(** Page [p] now ends at [c], if that is within the page. *)
Definition up_to (p : pid) (c : Z) (x : plan) : option plan :=
  if c <=? PAGE_SIZE then Some (mkPlan (fun q => if pid_eqb q p then c else ends x q) (kept x) (held x) (chosen x)) else None.
Definition cop_end (k : cop) (c : Z) : Z :=
  match k with
  | CEmitb _ => c + 1 | CEmitw _ => c + 2 | CEmitl _ => c + 4 | CEmitq _ => c + 8
  | CAlign4 => next_multiple 4 c | CAlign8 => next_multiple 8 c | CAlign16 => next_multiple 16 c | CAlignPage => next_multiple 4096 c
  end.
(** Entries placed one after the other from [c], each at a multiple of its alignment. *)
Fixpoint placed (c : Z) (es : list (Z * Z)) : Z := match es with [] => c | (a, n) :: r => placed (next_multiple a c + n) r end.
(** The size of a block in the encoding of SpecTwo; None: a statement has no code. *)
Fixpoint block_size (val : expr -> Z) (body : list inst) : option Z :=
  match body with
  | [] => Some 0
  | i :: r => match stmt_code val (fun _ => 0) i, block_size val r with Some bs, Some n => Some (Z.of_nat (List.length bs) + n) | _, _ => None end
  end.
Definition next (o : op) (x : plan) : option plan :=
  match o with
  | OPage n k => let p := match n with Some j => match pid_of j with Some q => q | None => chosen x end | None => chosen x end in up_to p (cop_end k (ends x p)) x
  | OEmit bs => up_to (chosen x) (ends x (chosen x) + Z.of_nat (List.length bs)) x
  | OAsm ev _ r body => match block_size (eval ev r) body with Some n => up_to (chosen x) (ends x (chosen x) + n) x | None => None end
  | OSelect k => Some (mkPlan (ends x) (kept x) (held x) (if k =? 0 then P0 else P1))
  | OCreate d =>
      let add f := fun q => if pid_eqb q (chosen x) then f q ++ [(dat_align d, dat_len d)] else f q in
      Some (if is_datum d then mkPlan (ends x) (kept x) (add (held x)) (chosen x) else mkPlan (ends x) (add (kept x)) (held x) (chosen x))
  | OFinalize =>
      let e p := placed (ends x p) (match p with P2 => held x P0 ++ held x P1 | _ => kept x p end) in
      if (e P0 <=? PAGE_SIZE) && (e P1 <=? PAGE_SIZE) && (e P2 <=? PAGE_SIZE) then Some (mkPlan e (fun _ => []) (fun _ => []) (chosen x)) else None
  | _ => Some x
  end.
Fixpoint planned (ops : list op) (x : plan) : option plan :=
  match ops with [] => Some x | o :: r => match next o x with Some y => planned r y | None => None end end.

(** Calls that make sense when there are [n] labels: as [sound] (SpecBudget), blocks as in C74. *)
Definition sensible (n : nat) (o : op) : Prop :=
  match o with
  | OAsm ev lenv r body =>
      Forall (plain ev r) body /\ Forall (rip_labels (eval ev r)) body /\ compile_all body <> None /\
      forall x, In x (body_labels body) \/ In x (defined body) -> (lenv x < n)%nat
  | _ => sound n o
  end.
Fixpoint all_sensible (n : nat) (ops : list op) : Prop :=
  match ops with [] => True | o :: r => sensible n o /\ all_sensible (if makes o then S n else n) r end.
(** The plan at a reached state. *)
Definition dims (e : dtype * label) : Z * Z := (entry_align (fst e), entry_len (fst e)).
Definition plan_of (s : jit) : plan :=
  mkPlan (fun p => counter (pages s p)) (fun p => map dims (constants (pages s p))) (fun p => map dims (data (pages s p))) (cur s).

(** Sessions that stay within the pages: how many bytes a call may take and which calls make sense, told from the
    calls alone. *)
From Verif Require Import Base ModelMem ModelSyntax ModelMacro SpecX86 SpecAsm SpecTaken SpecState SpecHist SpecProg SpecScope SpecLimit.
Local Open Scope list_scope.
Local Open Scope Z_scope.

(** Bytes a call takes at most on page [p] while page [c] is selected: a statement as in SpecLimit (C76), a constant
    with what its alignment may cost. *)
Definition cop_room (k : cop) : Z :=
  match k with CEmitb _ => 1 | CEmitw _ => 2 | CEmitl _ => 4 | CEmitq _ => 8 | CAlign4 => 3 | CAlign8 => 7 | CAlign16 => 15 | CAlignPage => 4095 end.
Definition only (q p : pid) (n : Z) : Z := if pid_eqb q p then n else 0.
Definition takes (c : pid) (o : op) (p : pid) : Z :=
  match o with
  | OPage None k => only c p (cop_room k)
  | OPage (Some n) k => match pid_of n with Some q => only q p (cop_room k) | None => 0 end
  | OEmit bs => only c p (Z.of_nat (List.length bs))
  | OAsm _ _ _ body => only c p (sum most body)
  | OCreate d => only (if is_datum d then P2 else c) p (dat_len d + dat_align d - 1)
  | _ => 0
  end.
(** Calls that make sense when there are [n] labels: page numbers and labels exist, the operands of a block are
    representable and its statements are, as taken, labels, data or x86 instructions (C52). *)
Definition sound (n : nat) (o : op) : Prop :=
  match o with
  | OPage None _ | OLabel | OFinalize => True
  | OPage (Some k) _ => 0 <= k <= 2
  | OEmit bs => Forall is_byte bs
  | OAsm ev lenv r body =>
      typed ev r body /\ compile_all body <> None /\ Forall (taken_as_ins (eval ev r)) (frozen ev r body) /\
      forall x, In x (body_labels body) \/ In x (defined body) -> (lenv x < n)%nat
  | OSelect k => k = 0 \/ k = 1
  | OBind l => (l < n)%nat
  | OBindPage k l => 0 <= k <= 2 /\ (l < n)%nat
  | OCreate (KAbs l) => (l < n)%nat
  | OCreate _ => True
  | OEnc _ _ _ _ | OSaveReloc _ _ | OPatch _ _ | OPatchAddr _ _ | OPoke _ _ => False
  end.
Definition makes (o : op) : bool := match o with OLabel | OCreate _ => true | _ => false end.
Definition selects (c : pid) (o : op) : pid := match o with OSelect k => if k =? 0 then P0 else P1 | _ => c end.
(** Each call makes sense and takes no more than is left. *)
Fixpoint within (room : pid -> Z) (n : nat) (c : pid) (ops : list op) : Prop :=
  match ops with
  | [] => True
  | o :: r => sound n o /\ (forall p, takes c o p <= room p) /\
      within (fun p => room p - takes c o p) (if makes o then S n else n) (selects c o) r
  end.
(** What a reached state has used of a page, with the constants that wait. *)
Definition entries (es : list (dtype * label)) : Z := fold_right (fun e a => entry_align (fst e) - 1 + entry_len (fst e) + a) 0 es.
Definition used (s : jit) (p : pid) : Z := counter (pages s p) + entries (waiting s p).

(** All calls return, with these answers. *)
Fixpoint returns (ops : list op) (s : jit) : option (list (option label) * jit) :=
  match ops with
  | [] => Some ([], s)
  | o :: r => match step o s with Ok y s' => match returns r s' with Some (ys, t) => Some (y :: ys, t) | None => None end | Panic _ _ => None end
  end.
(** The labels that label() and the calls that make constants return, counted from [n]. *)
Fixpoint numbered (n : nat) (ops : list op) : list (option label) :=
  match ops with [] => [] | o :: r => if makes o then Some n :: numbered (S n) r else None :: numbered n r end.

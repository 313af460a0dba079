(** Programs: vocabulary of the statements about whole blocks of assembled code. *)
From Verif Require Import Base ModelMem ModelSyntax ModelMacro SpecX86 SpecAsm SpecTaken SpecState SpecHist.

(** ** Statements *)
(** Expressions of the immediate operands of a statement. *)
Definition rmi_imms (o : rmi_operand) : list expr := match o with RmiImm e => [e] | _ => [] end.
Definition ri_imms (o : ri_operand) : list expr := match o with RiImm e => [e] | _ => [] end.
Definition mov_imms (o : mov_operand) : list expr := match o with MovImm e _ => [e] | _ => [] end.
Definition dest_imms (d : dest) : list expr := match d with DestDisp e => [e] | _ => [] end.
Definition imm_exprs (i : inst) : list expr :=
  match i with
  | IMovq a b => mov_imms a ++ mov_imms b
  | IMovl _ b | IMovw _ b | IMovb _ b
  | IAdd _ _ b | ISub _ _ b | IAdc _ _ b | ISbb _ _ b | IAnd _ _ b | IOr _ _ b | IXor _ _ b | ICmp _ _ b => rmi_imms b
  | IImul a b => rmi_imms a ++ rmi_imms b
  | IShl _ _ b | IShr _ _ b | ISal _ _ b | ISar _ _ b | IRol _ _ b | IRor _ _ b | ITestq _ b | ITestb _ b => ri_imms b
  | IRoundpd _ _ e => [e]
  | IJmp d | ICall d => dest_imms d
  | _ => []
  end.
(** All expressions of a statement. *)
Definition stmt_exprs (i : inst) : list expr := addr_exprs i ++ imm_exprs i.

Section Plain.
Variable ev : list tok -> env -> Z.
Variable r : env.
(** Environments that differ at most in the variable [imm]. *)
Definition same_but_imm (r' : env) : Prop := forall x, x <> "imm"%string -> r' x = r x.
(** An expression whose value does not depend on a variable called [imm]. *)
Definition imm_blind (e : expr) : Prop := forall r', same_but_imm r' -> eval ev r' e = eval ev r e.
(** A statement without the operands for which single instructions are known to go
    wrong: its expressions do not mention [imm], its registers exist, its memory
    operand is encodable, and it is neither cvttsd2siq nor roundpd with a label. *)
Definition plain (i : inst) : Prop :=
  Forall imm_blind (stmt_exprs i) /\
  (is_instr i = true -> wf_operands (eval ev r) i /\ roundpd_u8 ev r i /\ is_cvttsd2siq i = false /\ is_roundpd_label i = false).
(** A statement with any operands: its expressions do not mention [imm], the third
    operand of roundpd is a u8, scale factors are 1, 2, 4 or 8. *)
Definition regular (i : inst) : Prop :=
  Forall imm_blind (stmt_exprs i) /\ (is_instr i = true -> roundpd_u8 ev r i /\ scales_written i).
End Plain.

(** ** Linking *)
(** The address of a label at the first finalize of a run after which it is bound. *)
Fixpoint linked (ops : list op) (s : jit) (l : label) : option Z :=
  match ops with
  | [] => None
  | o :: rest =>
      match after o s with
      | None => None
      | Some s' =>
          match (if is_finalize o then label_addr s' l else None) with
          | Some a => Some a
          | None => linked rest s' l
          end
      end
  end.
(** Labels a block refers to. *)
Definition body_labels (body : list inst) : list string := flat_map inst_labels body.

(** ** Disassembly *)
Section Listing.
(** The machine instruction a statement stands for, given the displacement to each
    label: [denote val] for the instruction as written. *)
Variable mean : (string -> Z) -> inst -> option ins.
Variable target : string -> Z.       (* the address of each label *)
(** The bytes of page [p] from position [a] to position [b] are the statement [i]:
    nothing for a label definition, eight bytes for dq, and otherwise an
    instruction of at most 15 bytes that decodes to the one written, with every branch, call and
    [rip + label] operand pointing at the address of its label. *)
Definition stmt_at (s : jit) (p : pid) (i : inst) (a b : Z) : Prop :=
  match i with
  | ILabel _ => b = a
  | IF64 v | II64 v => b = a + 8 /\ bytes s p a 8 = le 8 v
  | _ => a <= b <= a + 15 /\ exists x y, mean (fun l => target l - addr s p b) i = Some x /\ same_ins x y /\
           forall rest, decode (bytes s p a (Z.to_nat (b - a)) ++ rest) = Some (y, rest)
  end.
(** [marks]: the positions of the statements of [body], and the end. *)
Definition listing (s : jit) (p : pid) (marks : list Z) (body : list inst) : Prop :=
  List.length marks = S (List.length body) /\
  forall k i a b, nth_error body k = Some i -> nth_error marks k = Some a -> nth_error marks (S k) = Some b -> stmt_at s p i a b.
End Listing.

(** ** Execution *)
Section Machine.
Variable mstate : Type.              (* registers, flags, data memory: anything *)
(** What an instruction does next: go on, take the branch it contains, or continue
    at an address it computed. *)
Inductive ctl := Fall | Taken | Jump (a : Z).
(** Any meaning of instructions: the instruction, the address of the next one, the
    state; None when there is no next state (a fault). *)
Variable sem : ins -> Z -> mstate -> option (mstate * ctl).
Definition rel_of (x : ins) : option Z := match i_ops x with [ORel d] => Some d | _ => None end.

(** The machine: fetch up to 15 bytes, decode, execute. *)
Definition mstep (m : Z -> Z) (pc : Z) (st : mstate) : option (Z * mstate) :=
  match decode (read m pc 15) with
  | None => None
  | Some (x, rest) =>
      let next := pc + (15 - Z.of_nat (List.length rest)) in
      match sem x next st with
      | None => None
      | Some (st', Fall) => Some (next, st')
      | Some (st', Taken) => match rel_of x with Some d => Some (next + d, st') | None => None end
      | Some (st', Jump a) => Some (a, st')
      end
  end.
Fixpoint mrun (m : Z -> Z) (n : nat) (pc : Z) (st : mstate) : option (Z * mstate) :=
  match n with
  | O => Some (pc, st)
  | S n' => match mstep m pc st with Some (pc', st') => mrun m n' pc' st' | None => None end
  end.

(** The interpreter of the source: positions are numbers of statements, a branch to
    a label continues at the statement that defines the label. *)
Section Source.
Variable mean : (string -> Z) -> inst -> option ins.
Variable target : string -> Z.
Variable at_ : nat -> Z.             (* addresses of the statements, for computed jumps, return addresses and rip *)
Variable body : list inst.
Inductive place := Stmt (k : nat) | Outside (a : Z).
Definition goto_addr (a : Z) : place :=
  match find (fun k => at_ k =? a) (seq 0 (List.length body)) with Some k => Stmt k | None => Outside a end.
Fixpoint find_label (x : string) (k : nat) (l : list inst) : option nat :=
  match l with
  | [] => None
  | ILabel y :: r => if String.eqb x y then Some k else find_label x (S k) r
  | _ :: r => find_label x (S k) r
  end.
Definition goto_label (x : string) : place :=
  match find_label x 0 body with Some k => Stmt k | None => goto_addr (target x) end.
Definition branch_label (i : inst) : option string :=
  match i with IJmp (DestRel x) | ICall (DestRel x) | IJcc _ x => Some x | _ => None end.
(** Label definitions do nothing. *)
Fixpoint skip (k : nat) (l : list inst) : nat := match l with ILabel _ :: r => skip (S k) r | _ => k end.
Inductive sres := Go (p : place) (st : mstate) | Fault | NoCode (k : nat).
Definition sstep (k0 : nat) (st : mstate) : sres :=
  let k := skip k0 (skipn k0 body) in
  match nth_error body k with
  | None | Some (ILabel _) | Some (IF64 _) | Some (II64 _) => NoCode k
  | Some i =>
      match mean (fun l => target l - at_ (S k)) i with
      | None => NoCode k
      | Some x =>
          match sem x (at_ (S k)) st with
          | None => Fault
          | Some (st', Fall) => Go (Stmt (S k)) st'
          | Some (st', Taken) =>
              match branch_label i, rel_of x with
              | Some l, _ => Go (goto_label l) st'
              | None, Some d => Go (goto_addr (at_ (S k) + d)) st'
              | None, None => Fault
              end
          | Some (st', Jump a) => Go (goto_addr a) st'
          end
      end
  end.
(** After n steps: inside, after a fault, or control has left the block (its end,
    its data or an address outside) with [j] steps still to do. *)
Inductive outcome_of := Inside (p : place) (st : mstate) | Faulted | Gone (j : nat) (a : Z) (st : mstate).
Fixpoint srun (n : nat) (p : place) (st : mstate) : outcome_of :=
  match n, p with
  | O, _ => Inside p st
  | S _, Outside a => Gone n a st
  | S n', Stmt k =>
      match sstep k st with
      | Go p' st' => srun n' p' st'
      | Fault => Faulted
      | NoCode k' => Gone n (at_ k') st
      end
  end.
Definition place_addr (p : place) : Z := match p with Stmt k => at_ k | Outside a => a end.
(** The machine does what the interpreter does. *)
Definition same_run (m : Z -> Z) (n : nat) (k : nat) (st : mstate) : Prop :=
  match srun n (Stmt k) st with
  | Inside p st' => mrun m n (at_ k) st = Some (place_addr p, st')
  | Faulted => mrun m n (at_ k) st = None
  | Gone j a st' => (j <= n)%nat /\ mrun m (n - j) (at_ k) st = Some (a, st')
  end.
End Source.
End Machine.
Arguments Inside {mstate}.
Arguments Faulted {mstate}.
Arguments Gone {mstate}.
Arguments Go {mstate}.
Arguments Fault {mstate}.
Arguments NoCode {mstate}.

(** The labels a block defines. *)
Definition defined (body : list inst) : list string := flat_map (fun i => match i with ILabel x => [x] | _ => [] end) body.
(** Each of them is a label created before the block, not the label of a constant,
    and bound nowhere else. *)
Definition own_labels (lenv : string -> label) (body : list inst) (s : jit) (ops : list op) : Prop :=
  NoDup (map lenv (defined body)) /\
  forall x, In x (defined body) -> (lenv x < List.length (labels s))%nat /\ (forall q e, In e (waiting s q) -> snd e <> lenv x) /\
    forall o, In o ops -> ~ binds_label o (lenv x).

(** ** Allocations at different addresses *)
(** Calls that store no absolute address. *)
Definition relocatable (o : op) : bool := match o with OCreate d => negb (is_abs d) | _ => api o end.
(** The two objects hold the same labels, cursors, pending constants and code blocks. *)
Definition same_tables (s t : jit) : Prop := cur t = cur s /\ (forall p, pages t p = pages s p) /\ labels t = labels s.
(** No expression of the statement depends on a variable called [imm]. *)
Definition blind (ev : list tok -> env -> Z) (r : env) (i : inst) : Prop := Forall (imm_blind ev r) (stmt_exprs i).

(** Programs of several blocks: a history of calls assembles blocks, on any pages and with
    anything between them, that jump to each other's labels. *)
From Verif Require Import Base ModelMem ModelSyntax ModelMacro SpecX86 SpecAsm SpecTaken SpecState SpecHist SpecProg SpecMachine SpecScope.
Local Open Scope Z_scope.

(** ** Histories *)
Record blk := mkBlk { b_ev : list tok -> env -> Z; b_lenv : string -> label; b_env : env; b_body : list inst }.
Definition block_of (o : op) : list blk := match o with OAsm ev lenv r body => [mkBlk ev lenv r body] | _ => [] end.
(** The blocks a history assembles, in order, without those that panic. *)
Fixpoint blocks (ops : list op) (s : jit) : list blk :=
  match ops with
  | [] => []
  | o :: rest =>
      match step o s with Ok _ _ => block_of o | Panic _ _ => [] end ++
      match after o s with Some s' => blocks rest s' | None => [] end
  end.
(** The statements of a block, each expression replaced by its value (SpecScope). *)
Definition source (b : blk) : list inst := frozen (b_ev b) (b_env b) (b_body b).
Definition meaning (b : blk) : (string -> Z) -> inst -> option ins := as_linked (eval (b_ev b) (b_env b)).
(** No label is bound twice: not by two calls, not by a call and as the label of a constant, not twice in a block. *)
Definition bound_once (ops : list op) (s0 : jit) : Prop :=
  (forall pre o rest s l, ops = pre ++ o :: rest -> run pre s0 = Some s -> binds_label o l ->
     label_addr s l = None /\ forall q e, In e (waiting s q) -> snd e <> l) /\
  (forall b, In b (blocks ops s0) -> NoDup (map (b_lenv b) (defined (b_body b)))).
(** The operands of every block are representable (SpecScope), and every label it refers to is bound in the end. *)
Definition complete (ops : list op) (s0 s4 : jit) : Prop :=
  forall b, In b (blocks ops s0) -> typed (b_ev b) (b_env b) (b_body b) /\
    forall x, In x (body_labels (b_body b)) -> label_addr s4 (b_lenv b x) <> None.
(** The address of a label in the end. *)
Definition final (s4 : jit) (l : label) : Z := match label_addr s4 l with Some a => a | None => 0 end.

(** ** Where the blocks are *)
(** The page of a block, the positions of its statements and its end. *)
Definition place_of : Type := pid * list Z.
Definition mark (s : jit) (w : place_of) (k : nat) : Z := addr s (fst w) (nth k (snd w) 0).
(** The bytes there are the block, with the address of every label put in; the labels it defines are at their statements. *)
Definition placed (s : jit) (b : blk) (w : place_of) : Prop :=
  listing (meaning b) (fun x => final s (b_lenv b x)) s (fst w) (snd w) (source b) /\
  forall k x, nth_error (source b) k = Some (ILabel x) -> label_addr s (b_lenv b x) = Some (mark s w k).

(** ** The interpreter of the source *)
Section Machine.
Variable mstate : Type.
Variable sem : ins -> Z -> mstate -> option (mstate * ctl).
Section Source.
Variable prog : list blk.
Variable target : label -> Z.        (* addresses of labels no block defines *)
Variable at_ : nat -> nat -> Z.      (* addresses of the statements *)
(** Before statement [k] of block [u], or somewhere else. *)
Inductive spot := At (u k : nat) | Away (a : Z).
Definition stmt (u k : nat) : option inst := match nth_error prog u with Some b => nth_error (source b) k | None => None end.
Definition is_code (u k : nat) : bool := match stmt u k with Some i => is_instr i | None => false end.
Definition spots : list (nat * nat) :=
  flat_map (fun u => map (pair u) (seq 0 (List.length (match nth_error prog u with Some b => source b | None => [] end)))) (seq 0 (List.length prog)).
(** At an address: of an instruction of some block, or not. *)
Definition arrive (a : Z) : spot :=
  match find (fun w => is_code (fst w) (snd w) && (at_ (fst w) (snd w) =? a)) spots with Some (u, k) => At u k | None => Away a end.
(** At a statement: label definitions do nothing; where there is no instruction, not even after label
    definitions, as at the end of a block, the address decides. *)
Definition enter (u k : nat) : spot :=
  let k' := skip k (skipn k (match nth_error prog u with Some b => source b | None => [] end)) in
  if is_code u k' then At u k' else arrive (at_ u k').
(** At a label: at the statement, of whatever block, that defines it. *)
Definition defines (l : label) (w : nat * nat) : bool :=
  match nth_error prog (fst w), stmt (fst w) (snd w) with Some b, Some (ILabel x) => Nat.eqb (b_lenv b x) l | _, _ => false end.
Definition goto (l : label) : spot := match find (defines l) spots with Some (u, k) => enter u k | None => arrive (target l) end.
Definition where_is (w : spot) : Z := match w with At u k => at_ u k | Away a => a end.

Inductive pres := PGo (w : spot) (st : mstate) | PFault.
Definition pstep (u k : nat) (st : mstate) : pres :=
  match nth_error prog u, stmt u k with
  | Some b, Some i =>
      let next := at_ u (S k) in
      match meaning b (fun x => target (b_lenv b x) - next) i with
      | None => PFault
      | Some x =>
          match sem x next st with
          | None => PFault
          | Some (st', Fall) => PGo (enter u (S k)) st'
          | Some (st', Taken) =>
              match branch_label i, rel_of x with
              | Some l, _ => PGo (goto (b_lenv b l)) st'
              | None, Some d => PGo (arrive (next + d)) st'
              | None, None => PFault
              end
          | Some (st', Jump a) => PGo (arrive a) st'
          end
      end
  | _, _ => PFault
  end.
(** After [n] steps; the blocks left with [j] steps to go; a fault. *)
Inductive presult := PInside (w : spot) (st : mstate) | PGone (j : nat) (a : Z) (st : mstate) | PFaulted.
Fixpoint prun (n : nat) (w : spot) (st : mstate) : presult :=
  match n, w with
  | O, _ => PInside w st
  | S _, Away a => PGone n a st
  | S n', At u k => match pstep u k st with PGo w' st' => prun n' w' st' | PFault => PFaulted end
  end.
End Source.

(** [n] steps of the source from [w] are [n] steps of the machine [go]. *)
Definition same_prun (go : nat -> Z -> mstate -> option (Z * mstate)) (prog : list blk) (target : label -> Z) (at_ : nat -> nat -> Z) (n : nat) (w : spot) (st : mstate) : Prop :=
  match prun prog target at_ n w st with
  | PInside w' st' => go n (where_is at_ w) st = Some (where_is at_ w', st')
  | PGone j a st' => (j <= n)%nat /\ go (n - j)%nat (where_is at_ w) st = Some (a, st')
  | PFaulted => go n (where_is at_ w) st = None
  end.
End Machine.

(** Statement addresses from the places of the blocks. *)
Definition marks_of (s : jit) (ws : list place_of) (u k : nat) : Z := match nth_error ws u with Some w => mark s w k | None => 0 end.
(** A spot where there is an instruction, or outside. *)
Definition proper (prog : list blk) (w : spot) : Prop := match w with At u k => is_code prog u k = true | Away _ => True end.
(** The program changes no byte of its blocks in [n] steps. *)
Definition keeps_blocks (m : Z -> Z) (prog : list blk) (target : label -> Z) (at_ : nat -> nat -> Z) (n : nat) (w : spot) (st : mach) : Prop :=
  forall j w' st' u b, (j <= n)%nat -> prun mach x86 prog target at_ j w st = PInside mach w' st' -> nth_error prog u = Some b ->
    holds m (at_ u 0%nat) (at_ u (List.length (b_body b))) st'.

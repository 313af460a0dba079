(** Programs of several blocks whose labels may be bound again: a label stands, in each reference, for the place
    where it was bound last before the finalize that links the reference. *)
From Verif Require Import Base ModelMem ModelSyntax ModelMacro SpecX86 SpecAsm SpecTaken SpecState SpecHist SpecProg SpecMachine SpecScope SpecMulti.
Local Open Scope list_scope.
Local Open Scope Z_scope.

(** ** What a reference refers to *)
(** Where a label was bound last: by statement [k] of block [u], or otherwise (by a call of bind_label, as a constant,
    by a block that panicked, before the history). *)
Inductive origin := ByStmt (u k : nat) | Otherwise.
(** The last statement of a block that defines the label. *)
Fixpoint last_def (lenv : string -> label) (l : label) (k : nat) (body : list inst) : option nat :=
  match body with
  | [] => None
  | i :: b =>
      match last_def lenv l (S k) b with
      | Some j => Some j
      | None => match i with ILabel x => if Nat.eqb (lenv x) l then Some k else None | _ => None end
      end
  end.
(** A constant with this label is to be placed. *)
Definition waits (s : jit) (l : label) : bool := existsb (fun q => existsb (fun e => Nat.eqb (snd e) l) (waiting s q)) [P0; P1; P2].
(** The blocks assembled so far are [n], [d] says where the labels were bound: afterwards. *)
Definition made (o : op) (s : jit) : list blk := match step o s with Ok _ _ => block_of o | Panic _ _ => [] end.
Definition rebound (o : op) (s : jit) (n : nat) (d : label -> origin) (l : label) : origin :=
  match o with
  | OAsm _ lenv _ body =>
      match last_def lenv l 0 body with
      | Some k => match step o s with Ok _ _ => ByStmt n k | Panic _ _ => Otherwise end
      | None => d l
      end
  | OBind k | OBindPage _ k => if Nat.eqb l k then Otherwise else d l
  | OEnc _ lenv _ (GBindLabel x) => if Nat.eqb (lenv x) l then Otherwise else d l
  | OFinalize => if waits s l then Otherwise else d l
  | _ => d l
  end.
(** What a label stands for in references that are there now: its address, and where it was bound, at the first finalize
    after which it is bound. *)
Fixpoint refers (ops : list op) (s : jit) (n : nat) (d : label -> origin) (l : label) : option (Z * origin) :=
  match ops with
  | [] => None
  | o :: rest =>
      match after o s with
      | None => None
      | Some s' =>
          match (if is_finalize o then label_addr s' l else None) with
          | Some a => Some (a, rebound o s n d l)
          | None => refers rest s' (n + List.length (made o s)) (rebound o s n d) l
          end
      end
  end.
(** The blocks of a history, each with what labels stand for in it. *)
Record piece := mkPiece { p_blk : blk; p_refers : label -> option (Z * origin) }.
Fixpoint pieces (ops : list op) (s : jit) (n : nat) (d : label -> origin) : list piece :=
  match ops with
  | [] => []
  | o :: rest =>
      match after o s with
      | None => []
      | Some s' =>
          let n' := (n + List.length (made o s))%nat in let d' := rebound o s n d in
          map (fun b => mkPiece b (refers rest s' n' d')) (made o s) ++ pieces rest s' n' d'
      end
  end.
Definition program (ops : list op) (s : jit) : list piece := pieces ops s 0 (fun _ => Otherwise).
(** The operands of every block are representable (SpecScope), and every reference it makes is linked. *)
Definition all_linked (ps : list piece) : Prop :=
  forall p, In p ps -> typed (b_ev (p_blk p)) (b_env (p_blk p)) (b_body (p_blk p)) /\
    forall x, In x (body_labels (b_body (p_blk p))) -> p_refers p (b_lenv (p_blk p) x) <> None.
Definition address (t : label -> option (Z * origin)) (l : label) : Z := match t l with Some (a, _) => a | None => 0 end.

(** ** Where the blocks are, and the interpreter of the source (SpecMulti has its parts) *)
Definition placed_as (s : jit) (p : piece) (w : place_of) : Prop :=
  listing (meaning (p_blk p)) (fun x => address (p_refers p) (b_lenv (p_blk p) x)) s (fst w) (snd w) (source (p_blk p)).
Section Machine.
Variable mstate : Type.
Variable sem : ins -> Z -> mstate -> option (mstate * ctl).
Section Source.
Variable ps : list piece.
Variable at_ : nat -> nat -> Z.
Definition prog : list blk := map p_blk ps.
(** A jump to a label: to the statement that defined it. *)
Definition follow (p : piece) (l : label) : spot :=
  match p_refers p l with
  | Some (_, ByStmt u k) => enter prog at_ u k
  | Some (a, Otherwise) => arrive prog at_ a
  | None => Away 0
  end.
Definition astep (u k : nat) (st : mstate) : pres mstate :=
  match nth_error ps u, stmt prog u k with
  | Some p, Some i =>
      let next := at_ u (S k) in
      match meaning (p_blk p) (fun x => address (p_refers p) (b_lenv (p_blk p) x) - next) i with
      | None => PFault _
      | Some x =>
          match sem x next st with
          | None => PFault _
          | Some (st', Fall) => PGo _ (enter prog at_ u (S k)) st'
          | Some (st', Taken) =>
              match branch_label i, rel_of x with
              | Some l, _ => PGo _ (follow p (b_lenv (p_blk p) l)) st'
              | None, Some d => PGo _ (arrive prog at_ (next + d)) st'
              | None, None => PFault _
              end
          | Some (st', Jump a) => PGo _ (arrive prog at_ a) st'
          end
      end
  | _, _ => PFault _
  end.
Fixpoint arun (n : nat) (w : spot) (st : mstate) : presult mstate :=
  match n, w with
  | O, _ => PInside _ w st
  | S _, Away a => PGone _ n a st
  | S n', At u k => match astep u k st with PGo _ w' st' => arun n' w' st' | PFault _ => PFaulted _ end
  end.
End Source.
Definition same_arun (go : nat -> Z -> mstate -> option (Z * mstate)) (ps : list piece) (at_ : nat -> nat -> Z) (n : nat) (w : spot) (st : mstate) : Prop :=
  match arun ps at_ n w st with
  | PInside _ w' st' => go n (where_is at_ w) st = Some (where_is at_ w', st')
  | PGone _ j a st' => (j <= n)%nat /\ go (n - j)%nat (where_is at_ w) st = Some (a, st')
  | PFaulted _ => go n (where_is at_ w) st = None
  end.
End Machine.
(** The program changes no byte of its blocks in [n] steps. *)
Definition keeps_pieces (m : Z -> Z) (ps : list piece) (at_ : nat -> nat -> Z) (n : nat) (w : spot) (st : mach) : Prop :=
  forall j w' st' u p, (j <= n)%nat -> arun mach x86 ps at_ j w st = PInside mach w' st' -> nth_error ps u = Some p ->
    holds m (at_ u 0%nat) (at_ u (List.length (b_body (p_blk p)))) st'.

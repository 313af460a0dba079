(** What a call leaves alone, whether it returns or panics (and is caught). *)
From Verif Require Import Base ModelMem ModelSyntax ModelMacro SpecState SpecHist.
Local Notation length := List.length.
Local Open Scope Z_scope.

(** The code of [s] is still there in [s']: no cursor went back and no byte below one
    changed, unless it is a field of a reference that was pending. *)
Record code_stays (s s' : jit) : Prop := mkKeepsCode {
  kc_base : base s' = base s;
  kc_cursors : forall p, counter (pages s p) <= counter (pages s' p);
  kc_bytes : forall p x, settled s p x -> byte s' p x = byte s p x
}.
(** The labels of [s] are still labels in [s'], those bound are still bound. *)
Record labels_stay (s s' : jit) : Prop := mkKeepsLabels {
  kl_valid : (length (labels s) <= length (labels s'))%nat;
  kl_bound : forall l, label_addr s l <> None -> label_addr s' l <> None
}.
(** What waits for the next finalize in [s] still waits in [s'], with zeros or
    whatever else it holds in the reserved fields. *)
Record pending_stays (s s' : jit) : Prop := mkKeepsPending {
  kp_refs : forall l t, In t (refs s l) -> In t (refs s' l);
  kp_fields : forall p x, 0 <= x < counter (pages s p) -> byte s' p x = byte s p x;
  kp_consts : forall p e, In e (constants (pages s p)) -> In e (constants (pages s' p));
  kp_data : forall p e, In e (data (pages s p)) -> In e (data (pages s' p));
  kp_blocks : forall p, code_block (pages s' p) = code_block (pages s p) /\
    code_block_top (pages s' p) = code_block_top (pages s p) /\ code_len (pages s' p) = code_len (pages s p)
}.
(** Calls that write into code already emitted. *)
Definition is_over (o : op) : bool := match o with OPatch _ _ | OPatchAddr _ _ | OPoke _ _ => true | _ => false end.
(** A reference whose field does not end inside its page. *)
Definition past_end (t : target) : Prop := PAGE_SIZE < fpos t + flen t.
(** A call of finalize that panics. *)
Definition panics (o : op) (s : jit) : bool := match step o s with Panic _ _ => true | Ok _ _ => false end.
(** No finalize of the calls, made one after the other, panics. *)
Fixpoint finalizes_well (ops : list op) (s : jit) : bool :=
  match ops with
  | [] => true
  | o :: r => negb (is_finalize o && panics o s) && finalizes_well r (outcome (step o s))
  end.

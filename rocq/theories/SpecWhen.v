(** When finalize is called: a history with calls of finalize in it against the same history with one finalize at its end. *)
From Verif Require Import Base ModelMem ModelSyntax ModelMacro SpecState SpecHist SpecShare.
Local Open Scope list_scope.
Local Open Scope Z_scope.

(** The calls that are not finalize. *)
Definition put_off (ops : list op) : list op := filter (fun o => negb (is_finalize o)) ops.
(** No constant and no datum is to be placed. *)
Definition idle (s : jit) : Prop := forall p, waiting s p = [].
(** finalize is called only when there is nothing to place, and a label is bound only while it is not bound. *)
Fixpoint well_timed (ops : list op) (s : jit) : Prop :=
  match ops with
  | [] => True
  | o :: r =>
      (is_finalize o = true -> idle s) /\ (forall l, binds_label o l -> label_addr s l = None) /\
      match after o s with Some s' => well_timed r s' | None => True end
  end.
(** The answers to the calls that are not finalize: what they return, or the panic. *)
Fixpoint answered (ops : list op) (s : jit) : list (option label + panic) :=
  match ops with
  | [] => []
  | o :: r =>
      (if is_finalize o then [] else [answer (step o s)]) ++
      match after o s with Some s' => answered r s' | None => [] end
  end.
(** The same machine code at the same place with the same labels, and nothing that later calls could tell apart except
    the code blocks: where the calls of finalize were. *)
Record same_code (s1 s2 : jit) : Prop := mkSameCode {
  sc_base : base s1 = base s2;
  sc_page : cur s1 = cur s2;
  sc_cursors : forall p, counter (pages s1 p) = counter (pages s2 p);
  sc_memory : forall x, mem s1 x = mem s2 x;
  sc_count : List.length (labels s1) = List.length (labels s2);
  sc_labels : forall l, loc_of s1 l = loc_of s2 l;
  sc_refs : forall l, refs s1 l = refs s2 l;
  sc_waiting : forall p, waiting s1 p = waiting s2 p
}.

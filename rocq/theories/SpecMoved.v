(** The same session in two allocations. *)
From Verif Require Import Base ModelMem ModelSyntax ModelMacro SpecState SpecHist SpecShare SpecWhen.
Local Open Scope list_scope.
Local Open Scope Z_scope.

(** Everything but addresses and memory: selected page, cursors, constants to be placed, code blocks, bindings and
    references of labels. *)
Definition same_session (s1 s2 : jit) : Prop := cur s1 = cur s2 /\ (forall p, pages s1 p = pages s2 p) /\ labels s1 = labels s2.
(** The byte [k] bytes after the start of the allocation. *)
Definition at_offset (s : jit) (k : Z) : Z := mem s (base s + k).
(** Offset [k] lies in eight bytes that hold the address of the same place, in each allocation its own. *)
Definition holds_address (s1 s2 : jit) (k : Z) : Prop :=
  exists p x q y, pidx p * PAGE_SIZE + x <= k < pidx p * PAGE_SIZE + x + 8 /\
    bytes s1 p x 8 = le 8 (addr s1 q y) /\ bytes s2 p x 8 = le 8 (addr s2 q y).
(** The images [s1], [s2] made from the states [a1], [a2]: a byte is the same in both, or part of an address that
    abs_address has put there, or has not been written in either. *)
Definition same_image (a1 a2 s1 s2 : jit) : Prop :=
  forall k, at_offset s1 k = at_offset s2 k \/ holds_address s1 s2 k \/ (at_offset s1 k = at_offset a1 k /\ at_offset s2 k = at_offset a2 k).
(** Calls that make no abs_address constant. *)
Definition unaddressed (o : op) : bool := match o with OCreate d => negb (is_abs d) | _ => true end.

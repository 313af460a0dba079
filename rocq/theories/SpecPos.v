(** Specification: the page an index expression names. *)
From Verif Require Import Base ModelMem.
Local Open Scope Z_scope.
(** [jit[pos]] is about the selected page, [jit[Page(n)][pos]] about page n, which must exist. *)
Definition indexed (n : option Z) (s : jit) : option pid :=
  match n with
  | None => Some (cur s)
  | Some 0 => Some P0 | Some 1 => Some P1 | Some 2 => Some P2
  | Some _ => None
  end.
(** [s1] is [s] with byte [v] at position [pos] of page [p]. *)
Definition one_byte (p : pid) (pos v : Z) (s s1 : jit) : Prop :=
  base s1 = base s /\ cur s1 = cur s /\ labels s1 = labels s /\ (forall q, pages s1 q = pages s q) /\
  forall x, mem s1 x = if x =? base s + pidx p * PAGE_SIZE + pos then v else mem s x.

(** The order of work on different pages. *)
From Coq Require Export Permutation.
From Verif Require Import Base ModelMem ModelEnc ModelSyntax ModelMacro SpecState SpecAsm SpecProg SpecHist SpecShare.
Local Open Scope list_scope.
Local Open Scope Z_scope.

(** A history in which every call comes right after select_page: (page, call). *)
Definition calls (us : list (Z * op)) : list op := flat_map (fun u => [OSelect (fst u); snd u]) us.
Definition selectable (u : Z * op) : Prop := fst u = 0 \/ fst u = 1.
(** The page a call works on. *)
Definition place (u : Z * op) : Z := match snd u with OPage (Some k) _ | OBindPage k _ => k | _ => fst u end.
(** Calls that emit code and bind labels. *)
Definition emits (o : op) : bool := match o with OPage _ _ | OEmit _ | OAsm _ _ _ _ | OEnc _ _ _ _ | OBind _ | OBindPage _ _ => true | _ => false end.
(** The labels a call may bind. *)
Definition binds (o : op) (l : label) : Prop :=
  match o with
  | OAsm _ lenv _ body => exists x, In x (defined body) /\ lenv x = l
  | OEnc _ lenv _ (GBindLabel x) => lenv x = l
  | OBind k | OBindPage _ k => k = l
  | _ => False
  end.
(** One history is the other with calls on different pages done in another order. *)
Inductive reordered : list (Z * op) -> list (Z * op) -> Prop :=
| reordered_same a : reordered a a
| reordered_swap a u v b : emits (snd u) = true -> emits (snd v) = true -> place u <> place v -> (forall l, ~ (binds (snd u) l /\ binds (snd v) l)) ->
    reordered (a ++ u :: v :: b) (a ++ v :: u :: b)
| reordered_trans a b c : reordered a b -> reordered b c -> reordered a c.
(** The answers to the calls on page [k]. *)
Fixpoint heard (k : Z) (us : list (Z * op)) (s : jit) : list (option label + panic) :=
  match us with
  | [] => []
  | u :: r => match after (OSelect (fst u)) s with
              | Some s' => (if place u =? k then [answer (step (snd u) s')] else []) ++
                           match after (snd u) s' with Some s2 => heard k r s2 | None => [] end
              | None => []
              end
  end.
(** The same, except for the page selected last and the order of the references to a label. *)
Record same_but_order (s1 s2 : jit) : Prop := mkSameOrder {
  so_base : base s1 = base s2;
  so_memory : forall x, mem s1 x = mem s2 x;
  so_pages : forall p, pages s1 p = pages s2 p;
  so_count : List.length (labels s1) = List.length (labels s2);
  so_bound : forall l, loc_of s1 l = loc_of s2 l;
  so_references : forall l, Permutation (refs s1 l) (refs s2 l)
}.

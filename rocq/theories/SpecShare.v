(** Several assemblers in one process: they share its memory, and other code, generated or not, writes it too. *)
From Verif Require Import Base ModelMem ModelPos ModelSyntax ModelMacro SpecState SpecHist.
Local Open Scope list_scope.
Local Open Scope Z_scope.

(** The memory of the process and the assemblers, by number.  (The field [mem] of [objs w k] means nothing: there is
    one memory.) *)
Record world := mkWorld { shared : Z -> Z; objs : nat -> jit }.
(** Assembler [k] as its methods find it. *)
Definition view (w : world) (k : nat) : jit :=
  mkJit (base (objs w k)) (shared w) (cur (objs w k)) (pages (objs w k)) (labels (objs w k)).
(** What can happen: a call on assembler [k], or the memory becomes [m] by other means. *)
Inductive event := Call (k : nat) (o : op) | Other (m : Z -> Z).
Definition happen (e : event) (w : world) : world :=
  match e with
  | Call k o => let s := outcome (step o (view w k)) in mkWorld (mem s) (fun j => if Nat.eqb j k then s else objs w j)
  | Other m => mkWorld m (objs w)
  end.
Definition history (es : list event) (w : world) : world := fold_left (fun w e => happen e w) es w.
(** Assemblers just made, number [k] with its allocation at [bs k].  (JitMemory::new writes nothing: one made later is one
    made at the start and not used before.) *)
Definition fresh (bs : nat -> Z) (m : Z -> Z) : world := mkWorld m (fun k => jit_new (bs k) m).

(** What calls answer: what they return, or the panic. *)
Definition answer {A} (r : res A) : A + panic := match r with Ok a _ => inl a | Panic e _ => inr e end.
(** The answers to the calls on assembler [k]. *)
Fixpoint answers (k : nat) (es : list event) (w : world) : list (option label + panic) :=
  match es with
  | [] => []
  | e :: r => match e with Call j o => if Nat.eqb j k then [answer (step o (view w k))] else [] | Other _ => [] end ++ answers k r (happen e w)
  end.
(** The calls on assembler [k], and the answers to calls on an assembler that is alone. *)
Definition calls_on (k : nat) (es : list event) : list op :=
  flat_map (fun e => match e with Call j o => if Nat.eqb j k then [o] else [] | Other _ => [] end) es.
Fixpoint answers_alone (ops : list op) (s : jit) : list (option label + panic) :=
  match ops with
  | [] => []
  | o :: r => answer (step o s) :: answers_alone r (outcome (step o s))
  end.

(** What an assembler knows apart from the memory. *)
Definition knows_same (s1 s2 : jit) : Prop :=
  base s1 = base s2 /\ cur s1 = cur s2 /\ (forall p, pages s1 p = pages s2 p) /\ labels s1 = labels s2.
(** The allocation at [b]. *)
Definition owned (b x : Z) : Prop := b <= x < b + 3 * PAGE_SIZE.
Definition apart (b c : Z) : Prop := b + 3 * PAGE_SIZE <= c \/ c + 3 * PAGE_SIZE <= b.
(** A patch through a raw address patches an instruction of the same assembler. *)
Definition patches_inside (o : op) (s : jit) : Prop :=
  match o with
  | OPatchAddr a _ => owned (base s) (a + 1) /\ owned (base s) (a + 4)
  | OPatch l _ => forall a, label_addr s l = Some a -> owned (base s) (a + 1) /\ owned (base s) (a + 4)
  | _ => True
  end.
(** The allocations are apart, patches stay inside, and nothing else writes to the allocation of assembler [k]. *)
Inductive orderly (k : nat) : list event -> world -> Prop :=
| ord_none w : orderly k [] w
| ord_call j o r w : (j <> k -> apart (base (objs w j)) (base (objs w k))) -> patches_inside o (view w j) ->
    orderly k r (happen (Call j o) w) -> orderly k (Call j o :: r) w
| ord_other m r w : (forall x, owned (base (objs w k)) x -> m x = shared w x) ->
    orderly k r (happen (Other m) w) -> orderly k (Other m :: r) w.
(** Memory [m] at the allocation [b], [m'] elsewhere. *)
Definition around (b : Z) (m m' : Z -> Z) : Z -> Z := fun x => if (b <=? x) && (x <? b + 3 * PAGE_SIZE) then m x else m' x.
(** Two assemblers that cannot be told apart, not even by the memory. *)
Definition same_jit (s1 s2 : jit) : Prop := knows_same s1 s2 /\ forall x, mem s1 x = mem s2 x.
(** Nothing but calls. *)
Definition only_calls (es : list event) : bool := forallb (fun e => match e with Call _ _ => true | Other _ => false end) es.
(** The methods that only look. *)
Definition looks_same (s1 s2 : jit) : Prop :=
  as_slice s1 = as_slice s2 /\ dump_slice s1 = dump_slice s2 /\ get_current s1 = get_current s2 /\ get_page s1 = get_page s2 /\
  (forall a, include s1 a = include s2 a) /\ answer (get_current_address s1) = answer (get_current_address s2) /\
  (forall l, answer (get_label_address l s1) = answer (get_label_address l s2)) /\ (forall l, answer (get_label_u64 l s1) = answer (get_label_u64 l s2)) /\
  forall n pos, answer (ModelPos.index n pos s1) = answer (ModelPos.index n pos s2).

(** Numbers of labels: two histories that differ in when and in which order labels are created. *)
From Verif Require Import Base ModelMem ModelEnc ModelSyntax ModelMacro SpecState SpecAsm SpecProg SpecHist SpecShare.
Local Open Scope list_scope.
Local Open Scope Z_scope.

(** The names of labels in a call of the encoder. *)
Definition rm_names (x : grm) : list string := match x with GRmInd a => label_of_disp (ia_disp a) | GRmReg _ => [] end.
Definition enc_names (c : gcall) : list string :=
  match c with
  | GBindLabel x | GEncD _ x | GSaveReloc x _ => [x]
  | GEncMi _ x _ | GEncRexwMi _ x _ | GEncMiByte _ x _ | GEncMr _ _ x | GEncMrByte _ _ x | GEncRexwMr _ _ x | GEncMByte _ x
  | GEncDigit _ x _ | GEncDigitImm _ x _ _ | GEncDigitImmByte _ _ x _ _ | GEncRexwDigit _ x _ _ => rm_names x
  | _ => []
  end.
(** The labels a call is given. *)
Definition given (o : op) (l : label) : Prop :=
  match o with
  | OAsm _ lenv _ body => exists x, In x (body_labels body ++ defined body) /\ lenv x = l
  | OEnc _ lenv _ c => exists x, In x (enc_names c) /\ lenv x = l
  | OBind k | OBindPage _ k | OCreate (KAbs k) => l = k
  | _ => False
  end.
Section Names.
Variable f : label -> label.
(** The call with label [f l] wherever it had [l]. *)
Definition renamed (o : op) : op :=
  match o with
  | OAsm ev lenv r body => OAsm ev (fun x => f (lenv x)) r body
  | OEnc ev lenv r c => OEnc ev (fun x => f (lenv x)) r c
  | OBind l => OBind (f l)
  | OBindPage n l => OBindPage n (f l)
  | OCreate (KAbs l) => OCreate (KAbs (f l))
  | _ => o
  end.
(** The second history is the first with label [f l] for [l], and creates labels when it wants to, as long as each exists
    before it is used.  [n], [m]: the numbers of labels that exist, which are the numbers of the next ones. *)
Inductive alike : nat -> nat -> list op -> list op -> Prop :=
| alike_end n m : alike n m [] []
| alike_left n m a b : alike (S n) m a b -> alike n m (OLabel :: a) b
| alike_right n m a b : alike n (S m) a b -> alike n m a (OLabel :: b)
| alike_create n m d a b : (forall l, given (OCreate d) l -> (l < n)%nat /\ (f l < m)%nat) -> f n = m ->
    alike (S n) (S m) a b -> alike n m (OCreate d :: a) (renamed (OCreate d) :: b)
| alike_call n m o a b : o <> OLabel -> (forall d, o <> OCreate d) -> (forall l, given o l -> (l < n)%nat /\ (f l < m)%nat) ->
    alike n m a b -> alike n m (o :: a) (renamed o :: b).
(** The answers to the calls that do not just create a label. *)
Definition named (a : option label + panic) : option label + panic := match a with inl (Some l) => inl (Some (f l)) | _ => a end.
Definition is_label (o : op) : bool := match o with OLabel => true | _ => false end.
Fixpoint replies (ops : list op) (s : jit) : list (option label + panic) :=
  match ops with
  | [] => []
  | o :: r => (if is_label o then [] else [answer (step o s)]) ++ match after o s with Some s' => replies r s' | None => [] end
  end.
(** Entries to be placed: constants and data with their labels. *)
Definition entry (e : dtype * label) : dtype * label := (match fst e with DAbsAddress l => DAbsAddress (f l) | d => d end, f (snd e)).
(** The same in everything but the numbers of labels. *)
Record same_but_names (s1 s2 : jit) : Prop := mkSameNames {
  sn_base : base s1 = base s2;
  sn_page : cur s1 = cur s2;
  sn_memory : forall x, mem s1 x = mem s2 x;
  sn_cursor : forall p, counter (pages s1 p) = counter (pages s2 p);
  sn_blocks : forall p, code_len (pages s1 p) = code_len (pages s2 p) /\ code_block_top (pages s1 p) = code_block_top (pages s2 p) /\
                        code_block (pages s1 p) = code_block (pages s2 p);
  sn_labels : forall l, (l < List.length (labels s1))%nat -> (f l < List.length (labels s2))%nat ->
                        loc_of s2 (f l) = loc_of s1 l /\ refs s2 (f l) = refs s1 l;
  sn_waiting : forall p, waiting s2 p = map entry (waiting s1 p)
}.
End Names.

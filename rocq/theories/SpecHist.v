(** Histories of API calls, and the vocabulary of the statements about them. *)
From Verif Require Import Base ModelMem ModelSyntax ModelMacro SpecState.

(** ** Calls *)
(** Emitting methods of a page. *)
Inductive cop :=
| CEmitb (v : Z) | CEmitw (v : Z) | CEmitl (v : Z) | CEmitq (v : Z)
| CAlign4 | CAlign8 | CAlign16 | CAlignPage.
Definition run_cop (c : cop) (p : pid) : M unit :=
  match c with
  | CEmitb v => emitb_on p v | CEmitw v => emitw_on p v | CEmitl v => emitl_on p v | CEmitq v => emitq_on p v
  | CAlign4 => align4_on p | CAlign8 => align8_on p | CAlign16 => align16_on p | CAlignPage => align_page_on p
  end.
(** Constants and data. *)
Inductive dat :=
| KF64 (bits : Z) | KI64 (v : Z) | KI32 (v : Z) | KBytes (n : Z) | KAbs (l : label) | KAlign8   (* const_*, constant, abs_address *)
| DI64 (v : Z) | DI32 (v : Z) | DZero (n : Z).                                                   (* data_*, data *)
Definition create (d : dat) : M label :=
  match d with
  | KF64 bits => const_f64 bits | KI64 v => const_i64 v | KI32 v => const_i32 v | KBytes n => constant n
  | KAbs l => abs_address l | KAlign8 => const_align8
  | DI64 v => data_i64 v | DI32 v => data_i32 v | DZero n => data_bytes n
  end.

Inductive op :=
| OPage (n : option Z) (c : cop)       (* jit.emitb(v) ...; with a number: jit[Page(n)].emitb(v) ... *)
| OEmit (bs : list Z)                  (* jit.emit(bs) *)
| OAsm (ev : list tok -> env -> Z) (lenv : string -> label) (r : env) (body : list inst)   (* monoasm!(jit, body) *)
| OEnc (ev : list tok -> env -> Z) (lenv : string -> label) (r : env) (c : gcall)  (* a public enc_* method *)
| OSelect (n : Z)
| OLabel
| OBind (l : label)
| OBindPage (n : Z) (l : label)
| OCreate (d : dat)
| OFinalize
| OSaveReloc (l : label) (off : Z)     (* save_reloc on its own; its offset is a u8 *)
| OPatch (p d : label)                 (* apply_jmp_patch *)
| OPatchAddr (a : Z) (d : label)       (* apply_jmp_patch_address *)
| OPoke (pos v : Z).                   (* jit[Pos::from(pos)] = v *)

Definition nolabel (m : M unit) : M (option label) := m ;; ret None.
Definition step (o : op) : M (option label) :=
  match o with
  | OPage None c => nolabel (on_cur (run_cop c))
  | OPage (Some n) c => nolabel (on_page n (run_cop c))
  | OEmit bs => nolabel (emit bs)
  | OAsm ev lenv r body =>                (* a body the macro rejects is not a program *)
      match compile_all body with
      | Some gs => exec_all ev lenv r gs ;; ret None
      | None => fail Unimplemented
      end
  | OEnc ev lenv r c =>
      match c with
      | GSaveReloc _ _ => ret None        (* see OSaveReloc *)
      | _ => nolabel (run_call ev lenv r c)
      end
  | OSelect n => nolabel (select_page n)
  | OLabel => l <- new_label ;; ret (Some l)
  | OBind l => nolabel (bind_label l)
  | OBindPage n l => nolabel (bind_label_with_page n l)
  | OCreate d => l <- create d ;; ret (Some l)
  | OFinalize => nolabel finalize
  | OSaveReloc l off => nolabel (save_reloc l (u8 off))
  | OPatch p d => nolabel (apply_jmp_patch p d)
  | OPatchAddr a d => nolabel (apply_jmp_patch_address a d)
  | OPoke pos v => nolabel (poke (u64 pos) v)      (* a position is a usize *)
  end.
(** Calls that do not write into code already emitted and that do not register a
    relocation without reserving its field: everything except save_reloc on its
    own, apply_jmp_patch(_address) and jit[pos] = v. *)
Definition api (o : op) : bool :=
  match o with OSaveReloc _ _ | OPatch _ _ | OPatchAddr _ _ | OPoke _ _ => false | _ => true end.
Definition is_finalize (o : op) : bool := match o with OFinalize => true | _ => false end.

(** The state after a call that returns, or that panics and is caught.  A panic of
    finalize and a page overflow end the history: the first leaves the object
    without its labels or its constants, the second may leave a reference whose
    field lies past the end of the page. *)
Definition tolerated (o : op) (e : panic) : bool :=
  negb (is_finalize o) && match e with PageOverflow => false | _ => true end.
Definition after (o : op) (s : jit) : option jit :=
  match step o s with
  | Ok _ s' => Some s'
  | Panic e s' => if tolerated o e then Some s' else None
  end.
Fixpoint run (ops : list op) (s : jit) : option jit :=
  match ops with
  | [] => Some s
  | o :: r => match after o s with Some s' => run r s' | None => None end
  end.
(** States reached by any calls at all, including calls that panic (and are caught). *)
Fixpoint run_any (ops : list op) (s : jit) : jit :=
  match ops with
  | [] => s
  | o :: r => run_any r (match step o s with Ok _ s' => s' | Panic _ s' => s' end)
  end.

(** ** Observations *)
(** Where a label is bound: page and position. *)
Definition loc_of (s : jit) (l : label) : option (pid * Z) :=
  match nth_error (labels s) l with Some i => loc i | None => None end.
(** The field of a pending reference: page, position, length. *)
Definition fpage (t : target) : pid := match t with Rel p _ _ => p | Abs p _ => p end.
Definition fpos (t : target) : Z := match t with Rel _ _ x => x | Abs _ x => x end.
Definition flen (t : target) : Z := match t with Rel _ _ _ => 4 | Abs _ _ => 8 end.
Definition in_field (t : target) (p : pid) (pos : Z) : Prop := fpage t = p /\ fpos t <= pos < fpos t + flen t.
(** Position [pos] of page [p] belongs to a reference not yet resolved. *)
Definition pending (s : jit) (p : pid) (pos : Z) : Prop := exists l t, In t (refs s l) /\ in_field t p pos.
(** Byte at a position of a page. *)
Definition byte (s : jit) (p : pid) (pos : Z) : Z := mem s (addr s p pos).
Definition bytes (s : jit) (p : pid) (pos : Z) (n : nat) : list Z := read (mem s) (addr s p pos) n.

(** Position [pos] of page [p] holds an emitted byte of no pending reference. *)
Definition settled (s : jit) (p : pid) (pos : Z) : Prop := 0 <= pos < counter (pages s p) /\ ~ pending s p pos.
(** The bytes that a call writing into emitted code overwrites are settled. *)
Definition overwrites (o : op) (s : jit) : Prop :=
  match o with
  | OPatch l _ => exists p x, loc_of s l = Some (p, x) /\ forall i, x + 1 <= i < x + 5 -> settled s p i
  | OPatchAddr a _ => exists p x, a = addr s p x /\ forall i, x + 1 <= i < x + 5 -> settled s p i
  | OPoke pos _ => settled s (cur s) (u64 pos)
  | _ => False
  end.
(** States reached from JitMemory::new(), with the allocation at address [b] and
    bytes [m] in it: by API calls, by overwriting emitted code, and by whatever else runs in the process, the
    generated code for one, writing to memory anything anywhere except into fields of unresolved references. *)
Inductive reached : jit -> Prop :=
| reached_new b m : reached (jit_new b m)
| reached_api o s s' : reached s -> api o = true -> after o s = Some s' -> reached s'
| reached_over o s s' : reached s -> overwrites o s -> after o s = Some s' -> reached s'
| reached_mem m s : reached s -> (forall p pos, pending s p pos -> m (addr s p pos) = mem s (addr s p pos)) ->
    reached (mkJit (base s) m (cur s) (pages s) (labels s)).

(** ** Vocabulary of the statements *)
(** The address of a label. *)
Definition label_addr (s : jit) (l : label) : option Z :=
  match loc_of s l with Some (p, x) => Some (addr s p x) | None => None end.
(** The bytes of the field of a reference, and the value it must hold when its
    label is at address [a]: the distance from the end of the instruction (the
    offset of a relative reference counts the bytes from the field to there), or the
    address itself. *)
Definition field (s : jit) (t : target) : list Z := bytes s (fpage t) (fpos t) (Z.to_nat (flen t)).
Definition ref_value (s : jit) (t : target) (a : Z) : Z :=
  match t with Rel p off x => a - (addr s p x + off) | Abs _ _ => a end.
(** No call of the list is a finalize. *)
Definition no_finalize (ops : list op) : bool := forallb (fun o => negb (is_finalize o)) ops.
(** The label is unbound after every finalize of the run. *)
Definition never_linked (ops : list op) (s : jit) (l : label) : Prop :=
  forall a b s', ops = a ++ OFinalize :: b -> run (a ++ [OFinalize]) s = Some s' -> label_addr s' l = None.

(** Constants and data: documented alignment, contents, and page kind. *)
Definition dat_align (d : dat) : Z :=
  match d with KF64 _ | KI64 _ | KBytes _ | DI64 _ | DZero _ => 16 | KI32 _ | DI32 _ => 4 | KAbs _ | KAlign8 => 8 end.
Definition dat_bytes (d : dat) : list Z :=
  match d with
  | KF64 bits => le 8 bits | KI64 v | DI64 v => le 8 v | KI32 v | DI32 v => le 4 v
  | KBytes n | DZero n => repeat 0 (Z.to_nat n) | KAbs _ => le 8 0 | KAlign8 => []
  end.
Definition dat_len (d : dat) : Z := Z.of_nat (List.length (dat_bytes d)).
Definition is_abs (d : dat) : bool := match d with KAbs _ => true | _ => false end.
Definition is_datum (d : dat) : bool := match d with DI64 _ | DI32 _ | DZero _ => true | _ => false end.
(** The page a constant or datum created in state [s] goes to. *)
Definition dat_page (d : dat) (s : jit) : pid := if is_datum d then P2 else cur s.
(** Where a list of constants ends when it is placed from position [c] on, each
    at the next multiple of its alignment. *)
Definition next_multiple (a c : Z) : Z := (c + a - 1) / a * a.
Definition entry_align (d : dtype) : Z := match d with DU64 _ | DBytes _ => 16 | DU32 _ => 4 | DAbsAddress _ | DAlign8 => 8 end.
Definition entry_len (d : dtype) : Z :=
  match d with DU64 _ | DAbsAddress _ => 8 | DU32 _ => 4 | DBytes n => Z.max 0 n | DAlign8 => 0 end.
Fixpoint layout_end (c : Z) (es : list (dtype * label)) : Z :=
  match es with [] => c | (d, _) :: r => layout_end (next_multiple (entry_align d) c + entry_len d) r end.
(** The constants and data waiting in [s] fit in their pages. *)
Definition room_for_constants (s : jit) : Prop :=
  layout_end (counter (pages s P0)) (constants (pages s P0)) <= PAGE_SIZE /\
  layout_end (counter (pages s P1)) (constants (pages s P1)) <= PAGE_SIZE /\
  layout_end (counter (pages s P2)) (data (pages s P0) ++ data (pages s P1)) <= PAGE_SIZE.
(** Every abs_address waiting in [s] refers to an existing label. *)
Definition known_targets (s : jit) : Prop :=
  forall p l k, In (DAbsAddress l, k) (constants (pages s p)) -> (l < List.length (labels s))%nat.

(** Code blocks: consecutive intervals from [a] to [e]. *)
Fixpoint blocks (a : Z) (bs : list (Z * Z * Z)) (e : Z) : Prop :=
  match bs with
  | [] => a = e
  | (x, y, z) :: r => x = a /\ x <= y <= z /\ blocks z r e
  end.

(** Calls through [jit[Page(2)]]. *)
Definition on_data_page (o : op) : bool := match o with OPage (Some n) _ => n =? 2 | _ => false end.
(** The state a call leaves, whether it returned or panicked. *)
Definition outcome {A} (r : res A) : jit := match r with Ok _ s => s | Panic _ s => s end.
(** Calls that write through a raw address. *)
Definition is_patch (o : op) : bool := match o with OPatch _ _ | OPatchAddr _ _ => true | _ => false end.

(** Bytes appended by the raw emit calls. *)
Definition cop_bytes (c : cop) : option (list Z) :=
  match c with
  | CEmitb v => Some (le 1 v) | CEmitw v => Some (le 2 v) | CEmitl v => Some (le 4 v) | CEmitq v => Some (le 8 v)
  | _ => None
  end.
(** The labels returned by a run. *)
Fixpoint returned (ops : list op) (s : jit) : list label :=
  match ops with
  | [] => []
  | o :: r =>
      match step o s with Ok (Some l) _ => [l] | _ => [] end ++
      match after o s with Some s' => returned r s' | None => [] end
  end.
(** Labels a call binds. *)
Definition binds_label (o : op) (l : label) : Prop :=
  match o with
  | OBind k | OBindPage _ k => l = k
  | OAsm _ lenv _ body => exists x, In (ILabel x) body /\ lenv x = l
  | OEnc _ lenv _ (GBindLabel x) => lenv x = l
  | _ => False
  end.
(** Only page [p] is touched: no other page changes in any way, the cursor of [p]
    does not move back and stays within the page, and a changed byte lies in [p] at
    or after the old cursor. *)
Record only_page (p : pid) (s s' : jit) : Prop := mkOnly {
  lc_base : base s' = base s;
  lc_cur : cur s' = cur s;
  lc_others : forall q, q <> p -> pages s' q = pages s q;
  lc_cursor : counter (pages s p) <= counter (pages s' p) <= PAGE_SIZE;
  lc_mem : forall x, mem s' x <> mem s x -> exists i, x = addr s p i /\ counter (pages s p) <= i < PAGE_SIZE
}.
(** The page a call emits to, aligns or gives a constant (a page number out of
    range only panics). *)
Definition target_page (o : op) (s : jit) : option pid :=
  match o with
  | OPage None _ | OEmit _ | OAsm _ _ _ _ | OEnc _ _ _ _ | OLabel | OBind _ | OCreate _ => Some (cur s)
  | OPage (Some n) _ | OBindPage n _ => match pid_of n with Some p => Some p | None => Some (cur s) end
  | _ => None
  end.
(** The address the field of a reference stands for: the distance in it counted
    from the end of the instruction, or the address in it. *)
Definition ref_dest (s : jit) (t : target) : Z :=
  match t with
  | Rel p off x => addr s p x + off + i32 (unle (field s t))
  | Abs _ _ => unle (field s t)
  end.
(** The entries finalize puts on a page. *)
Definition waiting (s : jit) (p : pid) : list (dtype * label) :=
  match p with P2 => data (pages s P0) ++ data (pages s P1) | _ => constants (pages s p) end.
(** A creation followed by calls other than finalize, and finalize. *)
Definition created_then (s : jit) (d : dat) (l : label) (ops : list op) (s1 s2 : jit) : Prop :=
  exists s0, step (OCreate d) s = Ok (Some l) s0 /\ forallb api ops = true /\ no_finalize ops = true /\
    run ops s0 = Some s1 /\ after OFinalize s1 = Some s2.
(** Calls that neither emit, bind nor create anything but fresh labels. *)
Definition inert (o : op) : bool := match o with OSelect _ | OLabel => true | _ => false end.
(** What a raw emission does: append [bs] if they fit, panic otherwise. *)
Definition emits (bs : list Z) (o : op) (s : jit) : Prop :=
  (cursor s + Z.of_nat (List.length bs) <= PAGE_SIZE -> exists s', step o s = Ok None s' /\ grows s s' bs /\ labels s' = labels s) /\
  (PAGE_SIZE < cursor s + Z.of_nat (List.length bs) -> exists s', step o s = Panic PageOverflow s').
(** A code pointer of this JitMemory: a result of an address getter. *)
Definition code_pointer (s : jit) (a : Z) : Prop := get_current_address s = Ok a s \/ exists l, get_label_address l s = Ok a s.
(** The field of the reference stands for the address [a]. *)
Definition points_to (s : jit) (t : target) (a : Z) : Prop :=
  match t with Rel _ _ _ => ref_dest s t = a | Abs _ _ => ref_dest s t = u64 a end.

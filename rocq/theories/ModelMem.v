(** Model of the memory manager: monoasm/src/jit_memory.rs 15-575 and
    monoasm/src/lib.rs 8-42, 254-362.

    Every [pub fn] of the code is a function in the state monad [M]; a panic is
    the explicit outcome [Panic], which keeps the state the object has at the
    moment of the panic (observable through [catch_unwind]). *)
From Verif Require Import Base.

(** lib.rs 8 : [const PAGE_SIZE: usize = 1024 * 1024 * 256]. *)
Definition PAGE_SIZE : Z := 268435456.

(** lib.rs 280-289 [DestLabel(usize)].  The number is a list index. *)
Definition label := nat.

(** jit_memory.rs 26-29: [Page(usize)] used as an index in [pages: [MemPage; 3]].
    A page number that indexes the array out of bounds panics ([pid_of]). *)
Inductive pid := P0 | P1 | P2.
Definition DATA_PAGE : pid := P2.
Definition pidx (p : pid) : Z := match p with P0 => 0 | P1 => 1 | P2 => 2 end.
Definition pid_of (n : Z) : option pid :=
  if n =? 0 then Some P0 else if n =? 1 then Some P1 else if n =? 2 then Some P2 else None.
Definition pid_eqb (p q : pid) : bool := pidx p =? pidx q.

(** jit_memory.rs 173-180 [enum DataType]. *)
Inductive dtype :=
| DU64 (v : Z)
| DU32 (v : Z)
| DBytes (size : Z)
| DAbsAddress (l : label)
| DAlign8.

(** lib.rs 315-319 [enum TargetType]. *)
Inductive target :=
| Rel (page : pid) (offset pos : Z)
| Abs (page : pid) (pos : Z).

(** lib.rs 297-313 [struct LabelInfo]. *)
Record label_info := mkLabel { loc : option (pid * Z); targets : list target }.
Definition label_new : label_info := mkLabel None [].

(** jit_memory.rs 34-50 [struct MemPage].  The field [contents] (the address of
    the page) is not stored: it is [contents s p] below, a function of the
    allocation address (see [JitMemory::new], 255-257). *)
Record page := mkPage {
  counter : Z;
  constants : list (dtype * label);
  data : list (dtype * label);
  code_len : Z;
  code_block_top : Z;
  code_block : list (Z * Z * Z)
}.
(** jit_memory.rs 73-83 [MemPage::new]. *)
Definition page_new : page := mkPage 0 [] [] 0 0 [].

(** jit_memory.rs 15-24 [struct JitMemory]; [base] is the allocation address and
    [mem] the bytes of the address space. *)
Record jit := mkJit {
  base : Z;
  mem : Z -> Z;
  cur : pid;
  pages : pid -> page;
  labels : list label_info
}.

(** jit_memory.rs 236-263 [JitMemory::new].  [b] is the address returned by the
    allocator and [m] the (unspecified) bytes found there; allocation failure
    and mprotect are not modelled. *)
Definition jit_new (b : Z) (m : Z -> Z) : jit := mkJit b m P0 (fun _ => page_new) [].

(** Address of the first byte of a page (jit_memory.rs 255-257, 85-87). *)
Definition contents (s : jit) (p : pid) : Z := base s + pidx p * PAGE_SIZE.
(** Address of a position in a page (jit_memory.rs 59, 68: [self.contents().add(index.0)]; 429, 433). *)
Definition addr (s : jit) (p : pid) (pos : Z) : Z := contents s p + pos.

(** Panics of the library and of the generated code (monoasm/src). *)
Inductive panic :=
| PageOverflow          (* "Page size overflow": jit_memory.rs 57, 66, 214, 223 *)
| IndexOOB              (* slice / array index out of bounds *)
| AssertFailed          (* assert!: jit_memory.rs 266, 582-604, 698, 862-863 *)
| NoBinding             (* "The DestLabel has no position binding.": jit_memory.rs 396, 533-549 *)
| UnwrapNone            (* Option::unwrap on None: jit_memory.rs 289 *)
| RelocOverflow         (* "Relocation overflow.": jit_memory.rs 438 *)
| Unimplemented         (* unimplemented!() in the encoder: lib.rs 235, 245 *)
| ImmRange.             (* panic! in generated code: operand not encodable *)

(** The result of a Rust function that takes [&mut JitMemory] (jit_memory.rs 15-24), and the monad of such
    functions: a panic keeps the object as it was at that moment. *)
Inductive res (A : Type) : Type :=
| Ok (a : A) (s : jit)
| Panic (e : panic) (s : jit).
Arguments Ok {A}. Arguments Panic {A}.

Definition M (A : Type) : Type := jit -> res A.
Definition ret {A} (a : A) : M A := fun s => Ok a s.
Definition fail {A} (e : panic) : M A := fun s => Panic e s.
Definition bind {A B} (m : M A) (k : A -> M B) : M B :=
  fun s => match m s with Ok a s' => k a s' | Panic e s' => Panic e s' end.
Notation "x <- m ;; k" := (bind m (fun x => k)) (at level 61, m at next level, right associativity).
Notation "m ;; k" := (bind m (fun _ => k)) (at level 61, right associativity).
Definition get : M jit := fun s => Ok s s.
Definition modify (f : jit -> jit) : M unit := fun s => Ok tt (f s).
Definition assert (b : bool) : M unit := if b then ret tt else fail AssertFailed.
(** Rust [for x in xs { f(x) }]. *)
Fixpoint forM {A} (xs : list A) (f : A -> M unit) : M unit :=
  match xs with
  | [] => ret tt
  | x :: r => f x ;; forM r f
  end.
(** Rust [for _ in 0..n { m }]. *)
Fixpoint repeatM (n : nat) (m : M unit) : M unit :=
  match n with O => ret tt | S n' => m ;; repeatM n' m end.

(** Field updates: the fields of JitMemory (jit_memory.rs 15-24) and of MemPage (35-50). *)
Definition set_mem (f : (Z -> Z) -> Z -> Z) (s : jit) : jit :=
  mkJit (base s) (f (mem s)) (cur s) (pages s) (labels s).
Definition set_labels (l : list label_info) (s : jit) : jit :=
  mkJit (base s) (mem s) (cur s) (pages s) l.
Definition set_cur (p : pid) (s : jit) : jit :=
  mkJit (base s) (mem s) p (pages s) (labels s).
Definition set_page (p : pid) (f : page -> page) (s : jit) : jit :=
  mkJit (base s) (mem s) (cur s)
        (fun q => if pid_eqb q p then f (pages s q) else pages s q) (labels s).
Definition with_counter (c : Z) (g : page) : page :=
  mkPage c (constants g) (data g) (code_len g) (code_block_top g) (code_block g).
Definition with_constants (cs : list (dtype * label)) (g : page) : page :=
  mkPage (counter g) cs (data g) (code_len g) (code_block_top g) (code_block g).
Definition with_data (ds : list (dtype * label)) (g : page) : page :=
  mkPage (counter g) (constants g) ds (code_len g) (code_block_top g) (code_block g).
Definition with_code_len (n : Z) (g : page) : page :=
  mkPage (counter g) (constants g) (data g) n (code_block_top g) (code_block g).
Definition with_top (t : Z) (g : page) : page :=
  mkPage (counter g) (constants g) (data g) (code_len g) t (code_block g).
Definition with_blocks (b : list (Z * Z * Z)) (g : page) : page :=
  mkPage (counter g) (constants g) (data g) (code_len g) (code_block_top g) b.

(** ** MemPage (jit_memory.rs 52-160).  The page operated on is an argument. *)

(** 63-70 [IndexMut<Pos> for MemPage]: [self[pos] = v].  The stored value is
    reduced modulo 256 because its Rust type is u8. *)
Definition put (p : pid) (pos v : Z) : M unit := fun s =>
  if PAGE_SIZE <=? pos then Panic PageOverflow s
  else Ok tt (set_mem (fun m => upd m (addr s p pos) (u8 v)) s).

(** 52-61 [Index<Pos> for MemPage]. *)
Definition peek (p : pid) (pos : Z) : M Z := fun s =>
  if PAGE_SIZE <=? pos then Panic PageOverflow s else Ok (mem s (addr s p pos)) s.

Definition get_counter (p : pid) : M Z := fun s => Ok (counter (pages s p)) s.
Definition set_counter (p : pid) (c : Z) : M unit := modify (set_page p (with_counter c)).

(** 89-107 [align_page], [align16], [align8], [align4]. *)
Definition align_page_on (p : pid) : M unit :=
  c <- get_counter p ;; set_counter p (Z.land (c + 4095) (Z.lnot 4095)).
Definition align16_on (p : pid) : M unit :=
  c <- get_counter p ;; set_counter p (Z.land (c + 15) (Z.lnot 15)).
Definition align8_on (p : pid) : M unit :=
  c <- get_counter p ;; set_counter p (Z.land (c + 7) (Z.lnot 7)).
Definition align4_on (p : pid) : M unit :=
  c <- get_counter p ;; set_counter p (Z.land (c + 3) (Z.lnot 3)).

(** 110-114 [emitb]. *)
Definition emitb_on (p : pid) (v : Z) : M unit :=
  c <- get_counter p ;; put p c v ;; set_counter p (c + 1).
(** 117-122 [emitw]. *)
Definition emitw_on (p : pid) (v : Z) : M unit :=
  c <- get_counter p ;;
  put p c (u8 v) ;;
  put p (c + 1) (u8 (Z.shiftr v 8)) ;;
  set_counter p (c + 2).
(** 125-132 [emitl]. *)
Definition emitl_on (p : pid) (v : Z) : M unit :=
  c <- get_counter p ;;
  put p c (u8 v) ;;
  put p (c + 1) (u8 (Z.shiftr v 8)) ;;
  put p (c + 2) (u8 (Z.shiftr v 16)) ;;
  put p (c + 3) (u8 (Z.shiftr v 24)) ;;
  set_counter p (c + 4).
(** 135-138 [emitq]. *)
Definition emitq_on (p : pid) (v : Z) : M unit :=
  emitl_on p (u32 v) ;; emitl_on p (u32 (Z.shiftr v 32)).

(** 141-147 [write32]. *)
Definition write32 (p : pid) (at_ : Z) (val : Z) : M unit :=
  let v := u32 val in
  put p at_ (u8 v) ;;
  put p (at_ + 1) (u8 (Z.shiftr v 8)) ;;
  put p (at_ + 2) (u8 (Z.shiftr v 16)) ;;
  put p (at_ + 3) (u8 (Z.shiftr v 24)).
(** 150-159 [write64]. *)
Definition write64 (p : pid) (at_ : Z) (v : Z) : M unit :=
  put p at_ (u8 v) ;;
  put p (at_ + 1) (u8 (Z.shiftr v 8)) ;;
  put p (at_ + 2) (u8 (Z.shiftr v 16)) ;;
  put p (at_ + 3) (u8 (Z.shiftr v 24)) ;;
  put p (at_ + 4) (u8 (Z.shiftr v 32)) ;;
  put p (at_ + 5) (u8 (Z.shiftr v 40)) ;;
  put p (at_ + 6) (u8 (Z.shiftr v 48)) ;;
  put p (at_ + 7) (u8 (Z.shiftr v 56)).

(** ** JitMemory (jit_memory.rs 182-575) *)

(** [Deref]/[DerefMut] (182-193): MemPage methods called on a JitMemory act on
    the selected page. *)
Definition on_cur {A} (f : pid -> M A) : M A := fun s => f (cur s) s.
Definition emitb (v : Z) : M unit := on_cur (fun p => emitb_on p v).
Definition emitw (v : Z) : M unit := on_cur (fun p => emitw_on p v).
Definition emitl (v : Z) : M unit := on_cur (fun p => emitl_on p v).
Definition emitq (v : Z) : M unit := on_cur (fun p => emitq_on p v).
Definition align_page : M unit := on_cur align_page_on.
Definition align16 : M unit := on_cur align16_on.
Definition align8 : M unit := on_cur align8_on.
Definition align4 : M unit := on_cur align4_on.

(** [Index<Page>]/[IndexMut<Page>] (195-207): out of bounds panics. *)
Definition on_page {A} (n : Z) (f : pid -> M A) : M A :=
  match pid_of n with Some p => f p | None => fail IndexOOB end.

(** 220-227 [IndexMut<Pos> for JitMemory]: [jit[pos] = v]. *)
Definition poke (pos v : Z) : M unit := on_cur (fun p => put p pos v).

(** 265-268 [select_page]; 270-272 [get_page]. *)
Definition select_page (n : Z) : M unit :=
  assert (n <? 2) ;;
  match pid_of n with Some p => modify (set_cur p) | None => fail IndexOOB end.
Definition get_page (s : jit) : Z := pidx (cur s).

(** 274-276 [include]. *)
Definition include (s : jit) (ptr : Z) : bool :=
  (contents s (cur s) <=? ptr) && (ptr <? contents s (cur s) + PAGE_SIZE * 2).

(** 297-303 [as_slice], [get_current]. *)
Definition as_slice (s : jit) : list Z :=
  read (mem s) (contents s (cur s)) (Z.to_nat (code_len (pages s (cur s)))).
Definition get_current (s : jit) : Z := counter (pages s (cur s)).

(** 313-315 [label] and lib.rs 330-334 [Labels::new_label]. *)
Definition new_label : M label := fun s =>
  Ok (length (labels s)) (set_labels (labels s ++ [label_new]) s).

(** 317-375: constants go to the selected page's [constants], data to its [data].
    [const_f64] receives the 64-bit pattern of the f64. *)
Definition push_constant (d : dtype) : M label :=
  l <- new_label ;;
  on_cur (fun p => modify (set_page p (fun g => with_constants (constants g ++ [(d, l)]) g))) ;;
  ret l.
Definition push_data (d : dtype) : M label :=
  l <- new_label ;;
  on_cur (fun p => modify (set_page p (fun g => with_data (data g ++ [(d, l)]) g))) ;;
  ret l.
Definition const_f64 (bits : Z) : M label := push_constant (DU64 bits).
Definition const_i64 (v : Z) : M label := push_constant (DU64 (u64 v)).
Definition data_i64 (v : Z) : M label := push_data (DU64 (u64 v)).
Definition const_i32 (v : Z) : M label := push_constant (DU32 (u32 v)).
Definition data_i32 (v : Z) : M label := push_data (DU32 (u32 v)).
Definition constant (size : Z) : M label := push_constant (DBytes size).
Definition data_bytes (size : Z) : M label := push_data (DBytes size).
Definition abs_address (target : label) : M label := push_constant (DAbsAddress target).
Definition const_align8 : M label := push_constant DAlign8.

(** lib.rs 337-349 [Index/IndexMut<DestLabel> for Labels]: out of bounds panics. *)
Definition upd_nth {A} (n : nat) (f : A -> A) : list A -> list A :=
  (fix go (n : nat) (l : list A) : list A :=
    match l, n with
    | [], _ => []
    | x :: r, O => f x :: r
    | x :: r, S n' => x :: go n' r
    end) n.
Definition modify_label (l : label) (f : label_info -> label_info) : M unit := fun s =>
  if (l <? length (labels s))%nat
  then Ok tt (set_labels (upd_nth l f (labels s)) s)
  else Panic IndexOOB s.
Definition with_loc (x : option (pid * Z)) (i : label_info) : label_info := mkLabel x (targets i).
Definition add_target (t : target) (i : label_info) : label_info := mkLabel (loc i) (targets i ++ [t]).

(** 378-385 [bind_label], [bind_label_with_page] (the right-hand side of the
    assignment is evaluated first, so an invalid page panics before an invalid label). *)
Definition bind_label_on (p : pid) (l : label) : M unit :=
  c <- get_counter p ;; modify_label l (with_loc (Some (p, c))).
Definition bind_label (l : label) : M unit := on_cur (fun p => bind_label_on p l).
Definition bind_label_with_page (n : Z) (l : label) : M unit := fun s =>
  on_page n (fun p => bind_label_on p l) s.

(** 393-397 [get_label_pos]; 404-408 [get_label_address]; 530-552
    [get_label_addr], [get_label_addr2], [get_label_u64] (all compute the same
    address; the first two transmute it to a function pointer). *)
Definition get_label_pos (l : label) : M (pid * Z) := fun s =>
  match nth_error (labels s) l with
  | None => Panic IndexOOB s
  | Some i => match loc i with None => Panic NoBinding s | Some x => Ok x s end
  end.
(** lib.rs 34-37 [CodePtr::from]: a null pointer panics. *)
Definition codeptr (a : Z) : M Z := if a =? 0 then fail UnwrapNone else ret a.
Definition get_label_address (l : label) : M Z :=
  x <- get_label_pos l ;; s <- get ;; codeptr (addr s (fst x) (snd x)).
Definition get_label_u64 (l : label) : M Z :=
  x <- get_label_pos l ;; s <- get ;; ret (addr s (fst x) (snd x)).
Definition get_label_addr (l : label) : M Z := get_label_u64 l.
Definition get_label_addr2 (l : label) : M Z := get_label_u64 l.
(** 399-402 [get_current_address]. *)
Definition get_current_address : M Z :=
  s <- get ;; codeptr (addr s (cur s) (counter (pages s (cur s)))).

(** 411-417 [save_reloc]; 420-423 [save_absolute_reloc]. *)
Definition save_reloc (dest : label) (offset : Z) : M unit :=
  on_cur (fun p => c <- get_counter p ;; modify_label dest (add_target (Rel p offset c))).
Definition save_absolute_reloc (p : pid) (dest : label) : M unit :=
  c <- get_counter p ;; modify_label dest (add_target (Abs p c)).

(** 426-452 [fill_relocs], one target of a label located at address [src]. *)
Definition fill_target (src : Z) (t : target) : M unit :=
  match t with
  | Rel p offset pos =>
      s <- get ;;
      let target_ptr := contents s p + pos + offset in
      let disp := src - target_ptr in
      if in_i32 disp then write32 p pos disp else fail RelocOverflow
  | Abs p pos => write64 p pos src
  end.
(** jit_memory.rs 428-450: the loop over labels.  The label table is taken out of the object
    ([mem::take]) and handled as a local value [reloc]; [acc] holds the entries
    already processed. *)
Fixpoint fill_labels (reloc : list label_info) (acc : list label_info) : M (list label_info) :=
  match reloc with
  | [] => ret (rev acc)
  | i :: r =>
      match loc i with
      | Some (p, pos) =>
          s <- get ;;
          forM (targets i) (fill_target (contents s p + pos)) ;;
          fill_labels r (mkLabel (loc i) [] :: acc)
      | None => fill_labels r (i :: acc)
      end
  end.
Definition fill_relocs : M unit :=
  s <- get ;;
  modify (set_labels []) ;;
  ls <- fill_labels (labels s) [] ;;
  modify (set_labels ls).

(** 455-490 [resolve_constants]: one entry of the list, on page [id]. *)
Definition resolve_constant_entry (id : pid) (e : dtype * label) : M unit :=
  let const_label := snd e in
  match fst e with
  | DU64 v => align16_on id ;; bind_label_on id const_label ;; emitq_on id v
  | DU32 v => align4_on id ;; bind_label_on id const_label ;; emitl_on id v
  | DBytes size =>
      align16_on id ;; bind_label_on id const_label ;;
      repeatM (Z.to_nat size) (emitb_on id 0)
  | DAbsAddress l =>
      align8_on id ;; bind_label_on id const_label ;;
      save_absolute_reloc id l ;; emitq_on id 0
  | DAlign8 => align8_on id ;; bind_label_on id const_label
  end.
Definition resolve_constants_of (id : pid) : M unit :=
  s <- get ;;
  modify (set_page id (with_constants [])) ;;
  forM (constants (pages s id)) (resolve_constant_entry id).
Definition resolve_constants : M unit := forM [P0; P1] resolve_constants_of.

(** 493-528 [resolve_data]: same shape, every entry goes to the data page. *)
Definition resolve_data_entry (e : dtype * label) : M unit :=
  let data_label := snd e in
  match fst e with
  | DU64 v => align16_on DATA_PAGE ;; bind_label_on DATA_PAGE data_label ;; emitq_on DATA_PAGE v
  | DU32 v => align4_on DATA_PAGE ;; bind_label_on DATA_PAGE data_label ;; emitl_on DATA_PAGE v
  | DBytes size =>
      align16_on DATA_PAGE ;; bind_label_on DATA_PAGE data_label ;;
      repeatM (Z.to_nat size) (emitb_on DATA_PAGE 0)
  | DAbsAddress l =>
      align8_on DATA_PAGE ;; bind_label_on DATA_PAGE data_label ;;
      save_absolute_reloc DATA_PAGE l ;; emitq_on DATA_PAGE 0
  | DAlign8 => align8_on DATA_PAGE ;; bind_label_on DATA_PAGE data_label
  end.
Definition resolve_data_of (id : pid) : M unit :=
  s <- get ;;
  modify (set_page id (with_data [])) ;;
  forM (data (pages s id)) resolve_data_entry.
Definition resolve_data : M unit := forM [P0; P1] resolve_data_of.

(** 279-295 [finalize]. *)
Definition open_block (g : page) : page :=
  with_blocks (code_block g ++ [(code_block_top g, counter g, 0)]) (with_code_len (counter g) g).
(** 289 [code_block.last_mut().unwrap().2 = page.counter]. *)
Fixpoint set_last_end (c : Z) (bs : list (Z * Z * Z)) : option (list (Z * Z * Z)) :=
  match bs with
  | [] => None
  | [(a, b, _)] => Some [(a, b, c)]
  | x :: r => match set_last_end c r with Some r' => Some (x :: r') | None => None end
  end.
Definition close_block_on (p : pid) : M unit := fun s =>
  match set_last_end (counter (pages s p)) (code_block (pages s p)) with
  | Some bs => Ok tt (set_page p (with_blocks bs) s)
  | None => Panic UnwrapNone s
  end.
Definition all_pages : list pid := [P0; P1; P2].
Definition finalize : M unit :=
  forM all_pages (fun p => modify (set_page p open_block)) ;;
  resolve_constants ;;
  resolve_data ;;
  forM all_pages close_block_on ;;
  fill_relocs ;;
  forM all_pages (fun p => modify (set_page p (fun g => with_top (counter g) g))).

(** 555-557 [emit]. *)
Definition emit (bs : list Z) : M unit := forM bs emitb.

(** 562-574 [apply_jmp_patch], [apply_jmp_patch_address].  The second one writes
    through a raw pointer: no page bound is checked. *)
Definition raw_write4 (a v : Z) : M unit :=
  modify (set_mem (fun m =>
    upd (upd (upd (upd m a (u8 v)) (a + 1) (u8 (Z.shiftr v 8)))
         (a + 2) (u8 (Z.shiftr v 16))) (a + 3) (u8 (Z.shiftr v 24)))).
Definition apply_jmp_patch_address (patch_point : Z) (jmp_dest : label) : M unit :=
  d <- get_label_address jmp_dest ;;
  let offset := d - patch_point - 5 in
  raw_write4 (patch_point + 1) (u32 (i32 offset)).
Definition apply_jmp_patch (patch_point jmp_dest : label) : M unit :=
  pp <- get_label_address patch_point ;; apply_jmp_patch_address pp jmp_dest.

(** 889-894 [dump_code]: the bytes handed to objdump (objdump itself is not
    modelled).  [code_block.last().unwrap()] and the slice bounds can panic. *)
Definition dump_slice (s : jit) : option (list Z) :=
  let g := pages s (cur s) in
  match rev (code_block g) with
  | [] => None
  | (start, code_end, _) :: _ =>
      if (start <=? code_end) && (code_end <=? code_len g)
      then Some (firstn (Z.to_nat (code_end - start)) (skipn (Z.to_nat start) (as_slice s)))
      else None
  end.

(** lib.rs 14-32: [CodePtr] subtraction, addition and order, on addresses. *)
Definition codeptr_sub (a b : Z) : Z := i64 a - i64 b.
Definition codeptr_add (a n : Z) : Z := u64 (a + n).
Definition codeptr_compare (a b : Z) : comparison := Z.compare a b.

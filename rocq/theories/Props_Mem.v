(** Properties C10-C24, C32, C36, C40, C41: histories of calls on one JitMemory.
    [reached s]: [s] is the state after any calls starting from JitMemory::new(), with
    the allocation anywhere and any bytes in it; calls that panic and are caught are
    included, except a panic of finalize and a page overflow.  [run ops s = Some s']:
    the calls [ops] lead from [s] to [s'].  [api]: every call except the ones that
    write into emitted code or register a relocation without its field.
    [run_any]: calls of any kind, every panic caught. *)
From Verif Require Import Base ModelMem ModelEnc ModelSyntax ModelMacro SpecX86 SpecState SpecHist MemThm MemFacts MemLocal MemMisc MemCode MemDemo ModelProt MemMore.
Open Scope list_scope. Open Scope Z_scope.

(** ** C10 *)
Theorem C10 : forall s s' l t a, reached s -> In t (refs s l) -> after OFinalize s = Some s' -> label_addr s' l = Some a ->
  points_to s' t a /\ refs s' l = [].
Proof. exact links. Qed.
Print Assumptions C10.
(** From the moment it is recorded: either the label has been unbound at every
    finalize so far, or the first finalize at which it was bound filled the field. *)
Theorem C10_first_finalize : forall ops s s' l t, reached s -> In t (refs s l) -> forallb api ops = true -> run ops s = Some s' ->
  (never_linked ops s l /\ In t (refs s' l) /\ field s' t = repeat 0 (Z.to_nat (flen t))) \/
  (exists a b s1 s2 x, ops = a ++ OFinalize :: b /\ run a s = Some s1 /\ never_linked a s l /\ after OFinalize s1 = Some s2 /\
     label_addr s2 l = Some x /\ points_to s2 t x /\ run b s2 = Some s' /\ field s' t = field s2 t).
Proof. exact life. Qed.
Print Assumptions C10_first_finalize.
Example C10_case : reached sA /\ refs sA 1%nat = [Rel P1 4 1] /\ after OFinalize sA = Some sB /\
  label_addr sB 1%nat = Some 65541 /\ field sB (Rel P1 4 1) = [0; 0; 0; 0xf0] /\ ref_dest sB (Rel P1 4 1) = 65541.
Proof. exact case10. Qed.

(** ** C11 *)
Theorem C11_no_failure : forall s, reached s -> (exists s', after OFinalize s = Some s') <-> room_for_constants s /\ known_targets s.
Proof. exact finalize_succeeds. Qed.
Print Assumptions C11_no_failure.
Theorem C11_pending : forall s s' l t, reached s -> In t (refs s l) -> after OFinalize s = Some s' -> label_addr s' l = None ->
  In t (refs s' l) /\ field s' t = repeat 0 (Z.to_nat (flen t)).
Proof. exact stays_pending. Qed.
Print Assumptions C11_pending.
Theorem C11_resolved_once : forall ops s s' l t, reached s -> In t (refs s l) -> forallb api ops = true -> run ops s = Some s' ->
  (never_linked ops s l /\ In t (refs s' l) /\ field s' t = repeat 0 (Z.to_nat (flen t))) \/
  (exists a b s1 s2 x, ops = a ++ OFinalize :: b /\ run a s = Some s1 /\ never_linked a s l /\ after OFinalize s1 = Some s2 /\
     label_addr s2 l = Some x /\ points_to s2 t x /\ run b s2 = Some s' /\ field s' t = field s2 t).
Proof. exact life. Qed.
Print Assumptions C11_resolved_once.
Example C11_case : reached sA /\ refs sA 0%nat = [Rel P0 4 1] /\ after OFinalize sA = Some sB /\ label_addr sB 0%nat = None /\
  field sB (Rel P0 4 1) = [0; 0; 0; 0] /\ run h2 sB = Some sC /\ after OFinalize sC = Some sD /\ label_addr sD 0%nat = Some 65568 /\
  ref_dest sD (Rel P0 4 1) = 65568.
Proof. exact case11. Qed.

(** ** C12.  Any calls at all, including ones that panicked and were caught. *)
Theorem C12 : forall ops b m o e s', step o (run_any ops (jit_new b m)) = Panic e s' -> e <> RelocOverflow.
Proof. exact any_no_reloc_overflow. Qed.
Print Assumptions C12.
Theorem C12_other_panics : forall s e s', reached s -> step OFinalize s = Panic e s' ->
  (e = PageOverflow /\ ~ room_for_constants s) \/ (e = IndexOOB /\ ~ known_targets s).
Proof. exact finalize_panics. Qed.
Print Assumptions C12_other_panics.
Example C12_case : exists s', step OFinalize (run_any [OCreate (KAbs 9%nat)] newD) = Panic IndexOOB s'.
Proof. exact case12. Qed.

(** ** C13 *)
Theorem C13 : forall ops s s' p i, reached s -> forallb api ops = true -> run ops s = Some s' -> 0 <= i < counter (pages s p) ->
  byte s' p i <> byte s p i -> pending s p i /\ no_finalize ops = false.
Proof. exact bytes_stay. Qed.
Print Assumptions C13.
Theorem C13_finalize : forall s s' p i, reached s -> after OFinalize s = Some s' -> 0 <= i < counter (pages s p) ->
  byte s' p i <> byte s p i -> exists l t, In t (refs s l) /\ in_field t p i /\ label_addr s' l <> None.
Proof. exact only_fields. Qed.
Print Assumptions C13_finalize.
Example C13_case : reached sA /\ after OFinalize sA = Some sB /\ counter (pages sA P0) = 14 /\
  bytes sA P0 0 14 = [0xe9; 0; 0; 0; 0; 0xf2; 0x0f; 0x10; 5; 0; 0; 0; 0; 0xc3] /\
  bytes sB P0 0 14 = [0xe9; 0; 0; 0; 0; 0xf2; 0x0f; 0x10; 5; 3; 0; 0; 0; 0xc3].
Proof. exact case13. Qed.

(** ** C14 *)
Theorem C14_cursor : forall ops b m p, 0 <= counter (pages (run_any ops (jit_new b m)) p) <= PAGE_SIZE.
Proof. exact any_cursor. Qed.
Print Assumptions C14_cursor.
Theorem C14_memory : forall ops b m x, forallb (fun o => negb (is_patch o)) ops = true -> x < b \/ b + 3 * PAGE_SIZE <= x ->
  mem (run_any ops (jit_new b m)) x = m x.
Proof. exact any_mem. Qed.
Print Assumptions C14_memory.
Theorem C14_page : forall o p s, reached s -> target_page o s = Some p -> only_page p s (outcome (step o s)).
Proof. exact page_local. Qed.
Print Assumptions C14_page.
Theorem C14_finalize : forall s s' x, reached s -> after OFinalize s = Some s' -> mem s' x <> mem s x ->
  exists p i, x = addr s p i /\ 0 <= i < counter (pages s' p) /\ counter (pages s' p) <= PAGE_SIZE.
Proof. exact finalize_writes. Qed.
Print Assumptions C14_finalize.
(** [emits]: the bytes are appended if they fit and the call panics if they do not. *)
Theorem C14_raw : forall c bs s, cop_bytes c = Some bs -> emits bs (OPage None c) s.
Proof. exact cop_emits. Qed.
Print Assumptions C14_raw.
Example C14_case : (exists s', step (OPage None (CEmitl 7)) sEnd = Panic PageOverflow s') /\ (exists s', step (OPage None (CEmitw 7)) sEnd = Ok None s').
Proof. exact case14. Qed.

(** ** C15 *)
Theorem C15 : forall o p s, reached s -> target_page o s = Some p -> only_page p s (outcome (step o s)).
Proof. exact page_local. Qed.
Print Assumptions C15.
Theorem C15_select : forall n s, (n = 0 \/ n = 1 <-> exists s', step (OSelect n) s = Ok None s') /\
  forall s', step (OSelect n) s = Ok None s' -> exists p, pid_of n = Some p /\ s' = set_cur p s.
Proof. exact select_spec. Qed.
Print Assumptions C15_select.
Theorem C15_bytes : forall o p s q i, reached s -> target_page o s = Some p -> q <> p -> 0 <= i < PAGE_SIZE ->
  byte (outcome (step o s)) q i = byte s q i.
Proof. exact other_bytes. Qed.
Print Assumptions C15_bytes.
Theorem C15_get_page : forall n s s', step (OSelect n) s = Ok None s' ->
  get_page s' = n /\ base s' = base s /\ labels s' = labels s /\ (forall q, pages s' q = pages s q) /\ forall x, mem s' x = mem s x.
Proof. exact select_observed. Qed.
Print Assumptions C15_get_page.
Theorem C15_refused : forall n s, 0 <= n -> n <> 0 -> n <> 1 -> step (OSelect n) s = Panic AssertFailed s.
Proof. exact select_refused. Qed.
Print Assumptions C15_refused.
Example C15_case : reached sA1 /\ cur sA1 = P1 /\ target_page (asm [IRet]) sA1 = Some P1 /\
  counter (pages (outcome (step (asm [IRet]) sA1)) P1) = 6 /\ counter (pages (outcome (step (asm [IRet]) sA1)) P0) = 14.
Proof. exact case15. Qed.

(** ** C16 *)
Theorem C16 : forall s d l ops s1 s2, reached s -> created_then s d l ops s1 s2 ->
  exists x, loc_of s2 l = Some (dat_page d s, x) /\ x mod dat_align d = 0 /\
    (base s mod 4096 = 0 -> addr s2 (dat_page d s) x mod dat_align d = 0) /\
    counter (pages s1 (dat_page d s)) <= x /\ x + dat_len d <= counter (pages s2 (dat_page d s)) /\
    (is_abs d = false -> bytes s2 (dat_page d s) x (List.length (dat_bytes d)) = dat_bytes d).
Proof. exact placed. Qed.
Print Assumptions C16.
Theorem C16_disjoint : forall s d1 l1 s0 ops1 sa d2 l2 ops2 s1 s2, reached s -> step (OCreate d1) s = Ok (Some l1) s0 ->
  forallb api ops1 = true -> no_finalize ops1 = true -> run ops1 s0 = Some sa -> created_then sa d2 l2 ops2 s1 s2 ->
  exists p x q y, loc_of s2 l1 = Some (p, x) /\ loc_of s2 l2 = Some (q, y) /\ (p <> q \/ x + dat_len d1 <= y \/ y + dat_len d2 <= x).
Proof. exact disjoint_constants. Qed.
Print Assumptions C16_disjoint.
Theorem C16_stays : forall s d l ops s1 s2 ops' s3, reached s -> created_then s d l ops s1 s2 -> forallb api ops' = true -> run ops' s2 = Some s3 ->
  (forall o, In o ops' -> ~ binds_label o l) ->
  loc_of s3 l = loc_of s2 l /\
  (is_abs d = false -> forall p x, loc_of s2 l = Some (p, x) -> bytes s3 p x (List.length (dat_bytes d)) = dat_bytes d).
Proof. exact stays_placed. Qed.
Print Assumptions C16_stays.
(** A finalize appends to each page the constants waiting for it, each at the next
    multiple of its alignment, and nothing else; afterwards nothing is waiting. *)
Theorem C16_once : forall s s' p, reached s -> after OFinalize s = Some s' ->
  counter (pages s' p) = layout_end (counter (pages s p)) (waiting s p) /\ waiting s' p = [].
Proof. exact placed_once. Qed.
Print Assumptions C16_once.
Example C16_case : reached sK /\ created_then sK (KF64 0x3ff0000000000000) 2%nat hK sK1 sK2 /\ loc_of sK2 2%nat = Some (P0, 16) /\
  bytes sK2 P0 16 8 = [0; 0; 0; 0; 0; 0; 0xf0; 0x3f].
Proof. exact case16. Qed.

(** ** C17 *)
Theorem C17_partial : forall s d l ops s1 s2, reached s -> is_datum d = true -> created_then s d l ops s1 s2 ->
  exists x, loc_of s2 l = Some (P2, x) /\ x mod dat_align d = 0 /\ (base s mod 4096 = 0 -> addr s2 P2 x mod dat_align d = 0) /\
    counter (pages s1 P2) <= x /\ x + dat_len d <= counter (pages s2 P2) /\ bytes s2 P2 x (List.length (dat_bytes d)) = dat_bytes d.
Proof. exact datum_placed. Qed.
Print Assumptions C17_partial.
Theorem C17_code_pages : forall s s' p, reached s -> after OFinalize s = Some s' -> p <> P2 ->
  counter (pages s' p) = layout_end (counter (pages s p)) (constants (pages s p)).
Proof. exact code_pages_grow. Qed.
Print Assumptions C17_code_pages.
Theorem C17_untouched : forall o s, reached s -> api o = true -> is_finalize o = false -> on_data_page o = false ->
  pages (outcome (step o s)) P2 = pages s P2 /\ forall i, 0 <= i < PAGE_SIZE -> byte (outcome (step o s)) P2 i = byte s P2 i.
Proof. exact data_untouched. Qed.
Print Assumptions C17_untouched.
(** The exception: Page(n) can be constructed by the caller, and jit[Page(2)] emits to the data page. *)
Theorem C17_page2_refuted : exists s s', reached s /\ step (OPage (Some 2) (CEmitb 1)) s = Ok None s' /\ counter (pages s' P2) <> counter (pages s P2).
Proof. exact page2_emits. Qed.
Print Assumptions C17_page2_refuted.
Example C17_case : loc_of sB 4%nat = Some (P2, 0) /\ bytes sB P2 0 8 = [77; 0; 0; 0; 0; 0; 0; 0] /\ on_data_page (asm [IRet]) = false.
Proof. exact case17. Qed.

(** ** C18 *)
Theorem C18 : forall s t l ops s1 s2 ops' s3, reached s -> created_then s (KAbs t) l ops s1 s2 -> forallb api ops' = true -> run ops' s2 = Some s3 ->
  exists x, loc_of s2 l = Some (cur s, x) /\
    ((label_addr s2 t = None /\ never_linked ops' s2 t /\ bytes s3 (cur s) x 8 = repeat 0 8) \/
     (exists a, label_addr s2 t = Some a /\ bytes s3 (cur s) x 8 = le 8 a) \/
     (label_addr s2 t = None /\ exists u v sa sb a, ops' = u ++ OFinalize :: v /\ run u s2 = Some sa /\ never_linked u s2 t /\
        after OFinalize sa = Some sb /\ label_addr sb t = Some a /\ bytes s3 (cur s) x 8 = le 8 a)).
Proof. exact abs_later. Qed.
Print Assumptions C18.
Theorem C18_aligned : forall s t l ops s1 s2, reached s -> created_then s (KAbs t) l ops s1 s2 ->
  exists x, loc_of s2 l = Some (cur s, x) /\ x mod 8 = 0 /\ (base s mod 4096 = 0 -> addr s2 (cur s) x mod 8 = 0) /\
    match label_addr s2 t with
    | Some a => bytes s2 (cur s) x 8 = le 8 a
    | None => bytes s2 (cur s) x 8 = repeat 0 8 /\ In (Abs (cur s) x) (refs s2 t)
    end.
Proof. exact abs_first. Qed.
Print Assumptions C18_aligned.
Example C18_case : created_then sK (KAbs 0%nat) 2%nat [] sP sP' /\ label_addr sP' 0%nat = None /\ bytes sP' P0 0 8 = [0; 0; 0; 0; 0; 0; 0; 0] /\
  run hP' sP' = Some sP'' /\ label_addr sP'' 0%nat = Some 65545 /\ bytes sP'' P0 0 8 = [9; 0; 1; 0; 0; 0; 0; 0].
Proof. exact case18. Qed.

(** ** C19 *)
Theorem C19_fresh : forall ops s, reached s -> forallb api ops = true ->
  NoDup (returned ops s) /\ forall l, In l (returned ops s) -> (List.length (labels s) <= l)%nat.
Proof. exact fresh. Qed.
Print Assumptions C19_fresh.
Theorem C19_bind : forall o l s s', reached s -> step o s = Ok None s' ->
  match o with
  | OBind k => k = l -> loc_of s' l = Some (cur s, cursor s)
  | OBindPage n k => k = l -> exists p, pid_of n = Some p /\ loc_of s' l = Some (p, counter (pages s p))
  | _ => True
  end.
Proof. exact bound_here. Qed.
Print Assumptions C19_bind.
(** Labels of label(); for the labels of constants and data see [C16_stays]. *)
Theorem C19_stable : forall s l s0 ops1 s1 ops2 s2, reached s -> step OLabel s = Ok (Some l) s0 ->
  forallb api (ops1 ++ ops2) = true -> run ops1 s0 = Some s1 -> run ops2 s1 = Some s2 -> (forall o, In o ops2 -> ~ binds_label o l) ->
  label_addr s2 l = label_addr s1 l.
Proof. exact label_stays. Qed.
Print Assumptions C19_stable.
Theorem C19_getters : forall s l, match label_addr s l with
  | Some a => (exists p x, get_label_pos l s = Ok (p, x) s /\ a = addr s p x) /\ get_label_u64 l s = Ok a s /\ get_label_addr l s = Ok a s /\
      get_label_addr2 l s = Ok a s /\ (a <> 0 -> get_label_address l s = Ok a s)
  | None => exists e, get_label_pos l s = Panic e s /\ get_label_u64 l s = Panic e s /\ get_label_addr l s = Panic e s /\
      get_label_addr2 l s = Panic e s /\ get_label_address l s = Panic e s
  end.
Proof. exact getters_agree. Qed.
Print Assumptions C19_getters.
Example C19_case : returned h1 newD = [0; 1; 2; 3; 4]%nat /\ label_addr sB 1%nat = Some 65541 /\ label_addr sD 1%nat = Some 65541 /\
  label_addr sB 0%nat = None.
Proof. exact case19. Qed.

(** ** C20.  [inert]: select_page and label() may come in between. *)
Theorem C20 : forall s s1 ops s2, reached s -> after OFinalize s = Some s1 -> forallb inert ops = true -> run ops s1 = Some s2 ->
  exists s3, after OFinalize s2 = Some s3 /\ (forall x, mem s3 x = mem s1 x) /\
    (forall p, counter (pages s3 p) = counter (pages s1 p)) /\ (forall l, label_addr s3 l = label_addr s1 l).
Proof. exact finalize_twice. Qed.
Print Assumptions C20.
Theorem C20_moves_nothing : forall s s', reached s -> after OFinalize s = Some s' ->
  (forall p, counter (pages s p) <= counter (pages s' p)) /\ base s' = base s /\ cur s' = cur s /\
  (forall l p x, loc_of s l = Some (p, x) -> (forall q e, In e (waiting s q) -> snd e <> l) -> loc_of s' l = Some (p, x)).
Proof. exact never_moves. Qed.
Print Assumptions C20_moves_nothing.
Example C20_case : reached sA /\ after OFinalize sA = Some sB /\ run [OSelect 1; OLabel] sB = Some sB1 /\ after OFinalize sB1 = Some sB2 /\
  bytes sB2 P0 0 40 = bytes sB P0 0 40 /\ counter (pages sB P0) = 32.
Proof. exact case20. Qed.

(** ** C21 *)
Theorem C21 : forall s s1 ops s2 p, reached s -> after OFinalize s = Some s1 -> forallb api ops = true -> no_finalize ops = true -> run ops s1 = Some s2 ->
  blocks 0 (code_block (pages s2 p)) (counter (pages s1 p)).
Proof. exact partition. Qed.
Print Assumptions C21.
Theorem C21_before : forall b m ops s p, forallb api ops = true -> no_finalize ops = true -> run ops (jit_new b m) = Some s -> code_block (pages s p) = [].
Proof. exact blocks_new. Qed.
Print Assumptions C21_before.
Theorem C21_block : forall s s' p, reached s -> after OFinalize s = Some s' ->
  exists a, code_block (pages s' p) = code_block (pages s p) ++ [(a, counter (pages s p), counter (pages s' p))].
Proof. exact new_block. Qed.
Print Assumptions C21_block.
Example C21_case : reached sC /\ after OFinalize sC = Some sD /\ code_block (pages sD P0) = [(0, 14, 32); (32, 33, 33)] /\ counter (pages sD P0) = 33.
Proof. exact case21. Qed.

(** ** C22 *)
Theorem C22_as_slice : forall s s1 ops s2, reached s -> after OFinalize s = Some s1 -> forallb api ops = true -> no_finalize ops = true -> run ops s1 = Some s2 ->
  as_slice s2 = bytes s2 (cur s2) 0 (Z.to_nat (counter (pages s (cur s2)))) /\ counter (pages s (cur s2)) <= counter (pages s1 (cur s2)).
Proof. exact slice. Qed.
Print Assumptions C22_as_slice.
Theorem C22_dump_first : forall b m ops s2 s3 ops' s4, forallb api ops = true -> no_finalize ops = true -> run ops (jit_new b m) = Some s2 ->
  after OFinalize s2 = Some s3 -> forallb api ops' = true -> no_finalize ops' = true -> run ops' s3 = Some s4 ->
  dump_slice s4 = Some (bytes s4 (cur s4) 0 (Z.to_nat (counter (pages s2 (cur s4))))).
Proof. exact dump_first. Qed.
Print Assumptions C22_dump_first.
Theorem C22_dump : forall s0 s1 ops s2 s3 ops' s4, reached s0 -> after OFinalize s0 = Some s1 -> forallb api ops = true -> no_finalize ops = true -> run ops s1 = Some s2 ->
  after OFinalize s2 = Some s3 -> forallb api ops' = true -> no_finalize ops' = true -> run ops' s3 = Some s4 ->
  dump_slice s4 = Some (bytes s4 (cur s4) (counter (pages s1 (cur s4))) (Z.to_nat (counter (pages s2 (cur s4)) - counter (pages s1 (cur s4))))).
Proof. exact dumps. Qed.
Print Assumptions C22_dump.
Example C22_case : after OFinalize sA = Some sB /\ run h2 sB = Some sC /\ after OFinalize sC = Some sD /\
  dump_slice sB = Some (bytes sB P0 0 14) /\ dump_slice sD = Some [0xc3].
Proof. exact case22. Qed.

(** ** C23 *)
Theorem C23 : forall s p d q x a m, reached s -> loc_of s p = Some (q, x) -> x + 5 <= PAGE_SIZE ->
  (byte s q x = 0xe9 /\ m = Jmp) \/ (byte s q x = 0xe8 /\ m = Call) -> label_addr s d = Some a -> 0 < base s ->
  exists s', apply_jmp_patch p d s = Ok tt s' /\
    (exists v, a = addr s q x + 5 + v /\ forall rest, decode (bytes s' q x 5 ++ rest) = Some (mkIns m W64 [ORel v], rest)) /\
    (forall y, ~ (addr s q x + 1 <= y < addr s q x + 5) -> mem s' y = mem s y) /\
    base s' = base s /\ cur s' = cur s /\ pages s' = pages s /\ labels s' = labels s.
Proof. exact patch_retargets. Qed.
Print Assumptions C23.
Theorem C23_survives : forall s p d q x s' ops s2, reached s -> loc_of s p = Some (q, x) -> (forall i, x <= i < x + 5 -> settled s q i) ->
  apply_jmp_patch p d s = Ok tt s' -> forallb api ops = true -> run ops s' = Some s2 -> bytes s2 q x 5 = bytes s' q x 5.
Proof. exact patch_stays. Qed.
Print Assumptions C23_survives.
(** Why the reference must have been resolved. *)
Theorem C23_pending_lost : exists s p d s' s'', reached s /\ apply_jmp_patch p d s = Ok tt s' /\ after OFinalize s' = Some s'' /\
  exists q x, loc_of s p = Some (q, x) /\ bytes s'' q x 5 <> bytes s' q x 5.
Proof. exact patch_lost. Qed.
Print Assumptions C23_pending_lost.
Example C23_case : reached sX /\ loc_of sX 2%nat = Some (P0, 0) /\ byte sX P0 0 = 0xe9 /\ label_addr sX 1%nat = Some 65542 /\
  bytes sX P0 0 7 = [0xe9; 0; 0; 0; 0; 0xc3; 0xc3] /\ bytes (outcome (apply_jmp_patch 2%nat 1%nat sX)) P0 0 7 = [0xe9; 1; 0; 0; 0; 0xc3; 0xc3].
Proof. exact case23. Qed.

(** ** C24.  Full statement: without [cur s = P0].  It is false: with page 1 selected,
    [include] tests page 1 and the data page. *)
Theorem C24_partial : forall s ptr, cur s = P0 -> (include s ptr = true <-> exists p i, p <> P2 /\ 0 <= i < PAGE_SIZE /\ ptr = addr s p i).
Proof. exact include_p0. Qed.
Print Assumptions C24_partial.
Theorem C24_page1 : forall s ptr, cur s = P1 -> (include s ptr = true <-> exists p i, p <> P0 /\ 0 <= i < PAGE_SIZE /\ ptr = addr s p i).
Proof. exact include_p1. Qed.
Print Assumptions C24_page1.
Theorem C24_refuted : exists s ptr, reached s /\ (exists p i, p <> P2 /\ 0 <= i < PAGE_SIZE /\ ptr = addr s p i) /\ include s ptr = false.
Proof. exact include_witness. Qed.
Print Assumptions C24_refuted.
Theorem C24_data_refuted : exists s i, reached s /\ 0 <= i < PAGE_SIZE /\ include s (addr s P2 i) = true.
Proof. exact include_data. Qed.
Print Assumptions C24_data_refuted.
Example C24_case : cur sD = P0 /\ include sD 65536 = true /\ include sD 65535 = false.
Proof. exact case24. Qed.

(** ** C32 *)
Theorem C32 : forall c bs s, cop_bytes c = Some bs -> emits bs (OPage None c) s /\
  exists n v, List.length bs = n /\ unle bs = v mod 256 ^ Z.of_nat n /\ Forall is_byte bs /\
    match c with CEmitb w => n = 1%nat /\ v = w | CEmitw w => n = 2%nat /\ v = w | CEmitl w => n = 4%nat /\ v = w | CEmitq w => n = 8%nat /\ v = w | _ => False end.
Proof. exact raw_spec. Qed.
Print Assumptions C32.
Theorem C32_emit : forall bs s, cursor s <= PAGE_SIZE -> Forall is_byte bs -> emits bs (OEmit bs) s.
Proof. exact bytes_emits. Qed.
Print Assumptions C32_emit.
Theorem C32_dq_int : forall ev lenv r v s, emits (le 8 v) (OAsm ev lenv r [II64 v]) s.
Proof. exact dq_int_emits. Qed.
Print Assumptions C32_dq_int.
(** Full statement: without the hypothesis that the statement compiles.  [dq -1.5;] does not. *)
Theorem C32_dq_float_partial : forall ev lenv r bits s, compile (IF64 bits) <> None -> emits (le 8 bits) (OAsm ev lenv r [IF64 bits]) s.
Proof. exact dq_float_emits. Qed.
Print Assumptions C32_dq_float_partial.
(** 0xbff8000000000000 is the double -1.5. *)
Theorem C32_refuted : exists bits, bits = 0xbff8000000000000 /\ forall ev lenv r s, ~ emits (le 8 bits) (OAsm ev lenv r [IF64 bits]) s.
Proof. exact dq_float_refuted. Qed.
Print Assumptions C32_refuted.
Example C32_case : cop_bytes (CEmitl 0x12345678) = Some [0x78; 0x56; 0x34; 0x12] /\
  bytes (outcome (step (OPage None (CEmitl 0x12345678)) sD)) P0 33 4 = [0x78; 0x56; 0x34; 0x12] /\ cursor sD = 33.
Proof. exact case32. Qed.

(** ** C36.  The allocation lies in the lower half of the address space. *)
Theorem C36 : forall s a b, reached s -> 0 < base s -> base s + 3 * PAGE_SIZE < 2 ^ 63 -> code_pointer s a -> code_pointer s b ->
  codeptr_sub b a = b - a /\ in_i32 (codeptr_sub b a) = true /\ (a <= b -> codeptr_add a (codeptr_sub b a) = b) /\
  codeptr_compare b a = Z.compare (codeptr_sub b a) 0.
Proof. exact pointers. Qed.
Print Assumptions C36.
(** The current address is where the next byte goes and where a label would be bound. *)
Theorem C36_current : forall s, reached s -> 0 < base s -> exists a, get_current_address s = Ok a s /\
  (forall v s', step (OPage None (CEmitb v)) s = Ok None s' -> mem s' a = u8 v /\ get_current_address s' = Ok (a + 1) s') /\
  (forall l s', step (OBind l) s = Ok None s' -> label_addr s' l = Some a).
Proof. exact current_full. Qed.
Print Assumptions C36_current.
Example C36_current_case : reached sD /\ base sD = 65536 /\ get_current_address sD = Ok 65569 sD /\ mem (outcome (step (OPage None (CEmitb 0xcc)) sD)) 65569 = 0xcc.
Proof. exact case36_current. Qed.
Example C36_case : reached sD /\ code_pointer sD 65541 /\ code_pointer sD 65569 /\ codeptr_sub 65541 65569 = -28.
Proof. exact case36. Qed.

(** ** C40.  [n]: none for the selected page, or a page number. *)
Theorem C40 : forall c a n p s, reached s -> align_of c = Some a -> (n = None /\ p = cur s \/ exists k, n = Some k /\ pid_of k = Some p) ->
  exists s', step (OPage n c) s = Ok None s' /\ only_cursor p s s' /\
    next_multiple a (counter (pages s p)) (counter (pages s' p)) /\ counter (pages s' p) <= PAGE_SIZE /\
    (base s mod 4096 = 0 -> addr s' p (counter (pages s' p)) mod a = 0).
Proof. exact align_step. Qed.
Print Assumptions C40.
Theorem C40_emit : forall c a s s1 v s2, reached s -> align_of c = Some a -> base s mod 4096 = 0 ->
  step (OPage None c) s = Ok None s1 -> step (OPage None (CEmitb v)) s1 = Ok None s2 ->
  exists x, addr s (cur s) x mod a = 0 /\ counter (pages s (cur s)) <= x < counter (pages s (cur s)) + a /\
    byte s2 (cur s) x = u8 v /\ get_current s2 = x + 1.
Proof. exact align_then_emit. Qed.
Print Assumptions C40_emit.
Example C40_case : reached sA1 /\ counter (pages sA1 P0) = 14 /\ counter (pages (outcome (step (OPage (Some 0) CAlign16) sA1)) P0) = 16 /\
  counter (pages (outcome (step (OPage None CAlignPage) sA1)) P1) = 4096.
Proof. exact case40. Qed.

(** ** C41 *)
Theorem C41_code : forall s p i, p <> P2 -> 0 <= i < PAGE_SIZE -> prot_of s (addr s p i) = RWX.
Proof. exact prot_code. Qed.
Print Assumptions C41_code.
Theorem C41_data : forall s i, 0 <= i < PAGE_SIZE -> prot_of s (addr s P2 i) = RW.
Proof. exact prot_data. Qed.
Print Assumptions C41_data.
Theorem C41_outside : forall s x, x < base s \/ base s + 3 * PAGE_SIZE <= x -> prot_of s x = Heap.
Proof. exact prot_outside. Qed.
Print Assumptions C41_outside.
Theorem C41_emitted : forall s s' bs k, reached s -> grows s s' bs -> 0 <= k < Z.of_nat (List.length bs) -> prot_of s' (here s + k) = RWX.
Proof. exact emitted_prot. Qed.
Print Assumptions C41_emitted.
Theorem C41_datum : forall s d l ops s1 s2, reached s -> is_datum d = true -> created_then s d l ops s1 s2 ->
  exists x, loc_of s2 l = Some (P2, x) /\ forall i, 0 <= i < dat_len d -> prot_of s2 (addr s2 P2 (x + i)) = RW.
Proof. exact datum_prot. Qed.
Print Assumptions C41_datum.
Example C41_case : reached sA1 /\ prot_of sA1 (addr sA1 P1 5) = RWX /\ loc_of sB 4%nat = Some (P2, 0) /\ prot_of sB (addr sB P2 0) = RW.
Proof. exact case41. Qed.

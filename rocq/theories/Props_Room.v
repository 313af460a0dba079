(** Property C77: the room a block needs is a matter of the block, not of the place.  [grows s s' bs] (SpecState): the bytes [bs]
    are appended to the selected page of [s] and nothing else of memory and pages changes; [most] (SpecLimit) bounds a statement. *)
From Verif Require Import Base ModelMem ModelEnc ModelSyntax ModelMacro SpecX86 SpecAsm SpecTaken SpecState SpecHist EncFacts EncRefute SpecProg SpecScope SpecLimit LimitDemo RoomFacts RoomDemo.
Local Open Scope list_scope.
Local Open Scope Z_scope.

(** ** C77.  A block that is assembled somewhere to [bs] is assembled to [bs] wherever its labels exist and so many bytes are left,
    up to the last byte of the page; with fewer bytes left, the page is full.  (Fields of references hold 0 until finalize().) *)
Theorem C77 : forall ev lenv r body s o s', step (OAsm ev lenv r body) s = Ok o s' -> cursor s <= PAGE_SIZE ->
  exists bs, grows s s' bs /\ forall t, cursor t <= PAGE_SIZE -> (List.length (labels s) <= List.length (labels t))%nat ->
  (cursor t + Z.of_nat (List.length bs) <= PAGE_SIZE -> exists t', step (OAsm ev lenv r body) t = Ok o t' /\ grows t t' bs) /\
  (PAGE_SIZE < cursor t + Z.of_nat (List.length bs) -> exists t', step (OAsm ev lenv r body) t = Panic PageOverflow t').
Proof. exact block_room. Qed.
Print Assumptions C77.
(** A block rejected somewhere for another reason than room is rejected everywhere, for the same reason unless the page is full first. *)
Theorem C77_rejected : forall ev lenv r body s e s' t, step (OAsm ev lenv r body) s = Panic e s' -> e <> PageOverflow ->
  cursor s <= PAGE_SIZE -> cursor t <= PAGE_SIZE -> List.length (labels s) = List.length (labels t) ->
  exists e' t', step (OAsm ev lenv r body) t = Panic e' t' /\ (e' = e \/ e' = PageOverflow /\ PAGE_SIZE < cursor t + sum most body).
Proof. exact block_reject. Qed.
Print Assumptions C77_rejected.
(** Which blocks are assembled when the bytes of C76 are left: those whose statements are, as taken, labels, data or x86
    instructions (C52, C58 grant 15 bytes for each statement). *)
Theorem C77_accepted : forall ev lenv r body s, typed ev r body -> compile_all body <> None -> cursor s <= PAGE_SIZE -> cursor s + sum most body <= PAGE_SIZE ->
  (forall x, In x (body_labels body) \/ In x (defined body) -> (lenv x < List.length (labels s))%nat) ->
  ((exists s1, step (OAsm ev lenv r body) s = Ok None s1) <-> Forall (taken_as_ins (eval ev r)) (frozen ev r body)).
Proof. exact accepted_room. Qed.
Print Assumptions C77_accepted.
(** A block of 24 bytes where 24 are left, and where 23 are left. *)
Example C77_case : is_ok (block mixed s1) = true /\ cursor s1 = 0 /\ cursor (state_of (block mixed s1)) = 24 /\
  is_ok (block mixed (left 24)) = true /\ cursor (state_of (block mixed (left 24))) = PAGE_SIZE /\
  bytes (state_of (block mixed (left 24))) P1 (PAGE_SIZE - 24) 24 = bytes (state_of (block mixed s1)) P0 0 24 /\ is_full (block mixed (left 23)) = true.
Proof. exact fits24. Qed.
(** The block followed by addq rax, 0x100000000. *)
Example C77_rejected_case : is_range (block wide s1) = true /\ is_range (block wide (left 24)) = true /\ is_full (block wide (left 23)) = true.
Proof. exact wide_rejected. Qed.
(** 26 bytes granted. *)
Example C77_accepted_case : typed ev0 r0 mixed /\ compile_all mixed <> None /\ cursor (left 26) + sum most mixed = PAGE_SIZE /\ PAGE_SIZE < cursor (left 26) + 15 * Z.of_nat (List.length mixed) /\
  (forall x, In x (body_labels mixed) \/ In x (defined mixed) -> (lenv0 x < List.length (labels (left 26)))%nat) /\ is_ok (block mixed (left 26)) = true.
Proof. exact mixed_accepted. Qed.

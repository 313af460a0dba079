(** Property C50: positions, and bytes read and written by position.  [index] and [index_mut] (ModelPos)
    are [jit[pos]] and [jit[Page(n)][pos]]; [pos_add] and [pos_sub] are the operators of Pos,
    with None for an overflow panic. *)
From Verif Require Import Base ModelMem ModelPos SpecState SpecHist SpecPos MemDemo PosFacts.
Local Open Scope Z_scope.

(** ** C50.  Reading gives the byte at that position of the page and changes nothing; a position past the page panics. *)
Theorem C50 : forall n p pos s, indexed n s = Some p ->
  (pos < PAGE_SIZE -> index n pos s = Ok (byte s p pos) s) /\ (PAGE_SIZE <= pos -> index n pos s = Panic PageOverflow s).
Proof. exact index_read. Qed.
Print Assumptions C50.
(** Every byte a call appends is read back. *)
Theorem C50_emitted : forall bs o s v s1 k b, emits bs o s -> step o s = Ok v s1 -> nth_error bs k = Some b -> index None (cursor s + Z.of_nat k) s1 = Ok b s1.
Proof. exact index_emitted. Qed.
Print Assumptions C50_emitted.
(** Writing changes that byte and nothing else, or panics and changes nothing. *)
Theorem C50_write : forall n p pos v s, indexed n s = Some p -> 0 <= v < 256 ->
  (pos < PAGE_SIZE -> exists s1, index_mut n pos v s = Ok tt s1 /\ one_byte p pos v s s1) /\ (PAGE_SIZE <= pos -> index_mut n pos v s = Panic PageOverflow s).
Proof. exact index_write. Qed.
Print Assumptions C50_write.
Theorem C50_back : forall n p pos v s s1 n' p' pos', indexed n s = Some p -> index_mut n pos v s = Ok tt s1 -> indexed n' s1 = Some p' -> 0 <= v < 256 -> 0 <= pos -> 0 <= pos' < PAGE_SIZE ->
  exists w, index n' pos' s1 = Ok w s1 /\ (p' = p /\ pos' = pos -> w = v) /\ (~ (p' = p /\ pos' = pos) -> w = byte s p' pos').
Proof. exact index_back. Qed.
Print Assumptions C50_back.
(** A page that does not exist. *)
Theorem C50_page : forall n pos v s, indexed n s = None -> index n pos s = Panic IndexOOB s /\ index_mut n pos v s = Panic IndexOOB s.
Proof. exact index_none. Qed.
Print Assumptions C50_page.
(** The positions of the code blocks (the public field [code_block]) subtract without overflow, and every
    position in between can be computed and read. *)
Theorem C50_blocks : forall checks s p a b c, reached s -> In (a, b, c) (code_block (pages s p)) ->
  0 <= a /\ c <= counter (pages s p) /\ pos_sub checks b a = Some (b - a) /\ pos_sub checks c b = Some (c - b) /\
  forall k, 0 <= k < c - a -> pos_add checks a k = Some (a + k) /\ index (Some (pidx p)) (a + k) s = Ok (byte s p (a + k)) s.
Proof. exact block_positions. Qed.
Print Assumptions C50_blocks.
(** A position moved below the start of the page is refused by every access, with or without overflow checks. *)
Theorem C50_before : forall checks p k n q s, 0 <= p < PAGE_SIZE -> - 2 ^ 31 <= k -> p + k < 0 -> indexed n s = Some q ->
  exists p', pos_add checks p k = Some p' /\ index n p' s = Panic PageOverflow s /\ forall v, index_mut n p' v s = Panic PageOverflow s.
Proof. exact pos_before. Qed.
Print Assumptions C50_before.
(** Adding to any position: the sum, which wraps at 2^64; with overflow checks it panics exactly where the
    sum of i64 values overflows, between 2^63 - 1 and 2^63. *)
Theorem C50_add : forall checks p k, 0 <= p < 2 ^ 64 -> - 2 ^ 31 <= k < 2 ^ 31 ->
  (p < 2 ^ 63 <= p + k \/ p + k < 2 ^ 63 <= p -> pos_add checks p k = if checks then None else Some (p + k)) /\
  (~ (p < 2 ^ 63 <= p + k \/ p + k < 2 ^ 63 <= p) -> pos_add checks p k = Some ((p + k) mod 2 ^ 64)).
Proof. exact pos_add_wraps. Qed.
Print Assumptions C50_add.
(** The difference of positions in the wrong order panics with overflow checks and wraps without. *)
Theorem C50_order : forall p q, 0 <= p < q -> q < 2 ^ 64 -> pos_sub true p q = None /\ pos_sub false p q = Some (p - q + 2 ^ 64).
Proof. exact pos_cross. Qed.
Print Assumptions C50_order.
Example C50_case : reached sD /\ In (0, 14, 32) (code_block (pages sD P0)) /\
  pos_sub true 14 0 = Some 14 /\ pos_add true 0 13 = Some 13 /\ index (Some 0) 13 sD = Ok 0xc3 sD /\ index (Some 0) PAGE_SIZE sD = Panic PageOverflow sD /\
  indexed (Some 3) sD = None /\ pos_add true 3 (-4) = Some (2 ^ 64 - 1) /\ pos_sub true 3 4 = None /\
  exists s1, index_mut None 13 0x90 sD = Ok tt s1 /\ index None 13 s1 = Ok 0x90 s1 /\ index None 12 s1 = Ok (byte sD P0 12) s1 /\ mem s1 (65536 + 13) = 0x90.
Proof. exact case50. Qed.

(** Property C63: the memory of assemblers in a process that makes and drops any number of them.
    [pg] is the size of the operating system's pages. *)
From Verif Require Import Base ModelMem ModelProt ModelNew SpecShare SpecNew NewFacts NewDemo.
Local Open Scope list_scope.
Local Open Scope Z_scope.

(** ** C63.  At every point every assembler made so far has its three pages, to itself, aligned, two of
    them executable and the third not; the allocations are apart, as C61 asks. *)
Theorem C63 : forall pg, 0 < pg -> PAGE_SIZE mod pg = 0 -> forall p es, starts p -> fairly pg es p ->
  (forall b, In b (made (pruns pg es p)) -> has_memory (pruns pg es p) b) /\ ForallOrdPairs apart (made (pruns pg es p)).
Proof. exact process_memory. Qed.
Print Assumptions C63.
(** It keeps them for as long as the process lives, also when it has been dropped: addresses of code
    stay good. *)
Theorem C63_stays : forall pg, 0 < pg -> PAGE_SIZE mod pg = 0 -> forall p es es' b, starts p -> fairly pg (es ++ es') p ->
  In b (made (pruns pg es p)) -> has_memory (pruns pg (es ++ es') p) b.
Proof. exact memory_stays. Qed.
Print Assumptions C63_stays.
(** [new] returns an assembler only if the memory was allocated and protected as it should be (in
    particular not at null), and panics otherwise; in either case the protection of all memory in use
    before stays as it was. *)
Theorem C63_new : forall pg, 0 < pg -> PAGE_SIZE mod pg = 0 -> forall p es a ok1 ok2, starts p -> fairly pg es p ->
  let q := pruns pg es p in fair pg q (NewJit a ok1 ok2) ->
  match new pg a ok1 ok2 q with
  | (Some b, q') => b = a /\ has_memory q' b /\ (forall c, In c (made q) -> apart b c) /\ ok1 = true /\ ok2 = true
  | (None, q') => made q' = made q /\ (ok1 = false \/ ok2 = false)
  end /\ forall r x, In r (heap q) -> within r x -> prots (snd (new pg a ok1 ok2 q)) x = prots q x.
Proof. exact new_memory. Qed.
Print Assumptions C63_new.
(** A call of [new] that panics does not give back what it has allocated, which may even be executable. *)
Theorem C63_leak_refuted : exists p a ok1 ok2 q, starts p /\ fair 4096 p (NewJit a ok1 ok2) /\ new 4096 a ok1 ok2 p = (None, q) /\
  ~ (exists r, In r (heap p) /\ within r a) /\ In (a, PAGE_SIZE * 3) (heap q) /\ prots q a = RWX.
Proof. exact leaks. Qed.
Print Assumptions C63_leak_refuted.
(** Two assemblers are made, the first is dropped, two more cannot be made. *)
Example C63_case : starts procD /\ fairly 4096 eventsD procD /\ made (pruns 4096 eventsD procD) = [PAGE_SIZE * 4; PAGE_SIZE] /\
  map (prots (pruns 4096 eventsD procD)) [PAGE_SIZE; PAGE_SIZE * 3 - 1; PAGE_SIZE * 3; PAGE_SIZE * 4; PAGE_SIZE * 6; 5000] = [RWX; RWX; RW; RWX; RW; RW].
Proof. exact case63. Qed.

(** Property C51: what is left after calls that panicked and were caught.  [run_any] makes arbitrary
    calls with every panic caught. *)
From Verif Require Import Base ModelMem ModelSyntax ModelMacro SpecState SpecHist MemDemo SpecPanic PanicFacts PanicDemo.
Local Notation length := List.length.
Local Open Scope list_scope.
Local Open Scope Z_scope.

(** ** C51.  After any calls, panics caught, no label is lost or handed out twice, no emitted byte changes, and what waits for
    finalize still waits.  Missing: a finalize that panics (C51_refuted, C51_refuted_constant). *)
Theorem C51_partial : forall ops b m o, is_over o = false -> is_finalize o = false ->
  let s := run_any ops (jit_new b m) in
  code_stays s (outcome (step o s)) /\ labels_stay s (outcome (step o s)) /\ pending_stays s (outcome (step o s)).
Proof. exact any_keeps. Qed.
Print Assumptions C51_partial.
(** finalize, whether it returns or panics, keeps the code; it keeps the labels too, unless it panics with a reference whose field
    runs past the end of its page, and then no label is left. *)
Theorem C51_finalize : forall ops b m, let s := run_any ops (jit_new b m) in
  code_stays s (outcome (step OFinalize s)) /\
  (panics OFinalize s = false -> labels_stay s (outcome (step OFinalize s)) /\ length (labels (outcome (step OFinalize s))) = length (labels s)) /\
  (labels_stay s (outcome (step OFinalize s)) \/
   panics OFinalize s = true /\ labels (outcome (step OFinalize s)) = [] /\ exists l t, In t (refs s l) /\ past_end t).
Proof. exact any_finalize. Qed.
Print Assumptions C51_finalize.
(** Labels are not handed out twice as long as no finalize in between panics. *)
Theorem C51_fresh_partial : forall ops1 ops2 b m l1 s1 l2 s2,
  step OLabel (run_any ops1 (jit_new b m)) = Ok (Some l1) s1 -> finalizes_well ops2 s1 = true -> step OLabel (run_any ops2 s1) = Ok (Some l2) s2 -> l1 <> l2.
Proof. exact label_fresh. Qed.
Print Assumptions C51_fresh_partial.
(** A jump that overflows the page, then a finalize: all labels are gone and label() starts again from the first. *)
Theorem C51_refuted : exists ops1 ops2 b m l s1 s2,
  step OLabel (run_any ops1 (jit_new b m)) = Ok (Some l) s1 /\ step OLabel (run_any ops2 s1) = Ok (Some l) s2.
Proof. exact label_reused. Qed.
Print Assumptions C51_refuted.
(** A constant that does not fit: finalize panics, and the next finalize returns although the constant is nowhere; its label is
    bound behind the page. *)
Theorem C51_refuted_constant : exists b m s0 s1 l ops s2 s3, s0 = jit_new b m /\ step (OCreate (KI64 5)) s0 = Ok (Some l) s1 /\
  run_any ops s1 = s2 /\ step OFinalize s2 = Ok None s3 /\ exists a, label_addr s3 l = Some a /\ read (mem s3) a 8 <> dat_bytes (KI64 5).
Proof. exact constant_gone. Qed.
Print Assumptions C51_refuted_constant.
Example C51_case : panics far (run_any h1 newD) = true /\ is_over far = false /\ is_finalize far = false /\
  length (labels (outcome (step far (run_any h1 newD)))) = 5%nat /\ counter (pages (outcome (step far (run_any h1 newD))) P0) = 15 /\
  bytes (outcome (step far (run_any h1 newD))) P0 0 15 = bytes (run_any h1 newD) P0 0 14 ++ [0xe9] /\
  refs (outcome (step far (run_any h1 newD))) 1%nat = [Rel P1 4 1] /\ finalizes_well (h1 ++ [far; OFinalize]) newD = true.
Proof. exact case51. Qed.

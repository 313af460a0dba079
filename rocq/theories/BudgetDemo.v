(** A session within its budget. *)
From Verif Require Import Base ModelMem ModelSyntax ModelMacro SpecX86 SpecAsm SpecTaken SpecState SpecHist MemDemo SpecProg SpecScope SpecMulti SpecLive LiveDemo SpecBudget.
Local Notation length := List.length.
Local Open Scope list_scope.
Local Open Scope Z_scope.

Definition session65 : list op :=
  [OLabel; OLabel; OLabel; OLabel; asm (bodyL "c"); OCreate (KF64 4614253070214989087); OCreate (KAbs 1%nat); OCreate (DI32 7);
   OSelect 1; OPage None CAlign16; asm bodyM; OEmit [144]; OLabel; OBind 7%nat; OFinalize; OPage (Some 2) CAlignPage; OCreate (KBytes 24); OBindPage 2 8%nat; OFinalize].
Lemma case65 :
  within (fun _ => PAGE_SIZE) 0 P0 session65 /\
  numbered 0 session65 = [Some 0; Some 1; Some 2; Some 3; None; Some 4; Some 5; Some 6; None; None; None; None; Some 7; None; None; None; Some 8; None; None]%nat /\
  option_map fst (returns session65 newD) = Some (numbered 0 session65) /\
  option_map (fun x => (counter (pages (snd x) P0), counter (pages (snd x) P1), counter (pages (snd x) P2))) (returns session65 newD) = Some (48, 40, 4096).
Proof.
  split; [|split; [reflexivity|split; vm_compute; reflexivity]].
  assert (B : forall n, (3 < n)%nat -> sound n (asm (bodyL "c")) /\ sound n (asm bodyM)).
  { intros n Hn. split; (split; [repeat constructor; cbn; repeat split; lia|]); (split; [vm_compute; discriminate|]);
      (split; [repeat constructor; intro; vm_compute; discriminate|]); intros x Hx; vm_compute in Hx; intuition subst; vm_compute [lenvD]; cbn; lia. }
  assert (T : forall r n c o ops, sound n o -> (takes c o P0 <= r P0 /\ takes c o P1 <= r P1 /\ takes c o P2 <= r P2) ->
    within (fun p => r p - takes c o p) (if makes o then S n else n) (selects c o) ops -> within r n c (o :: ops)).
  { intros r n c o ops H1 (H2 & H3 & H4) H5. split; [exact H1|]. split; [intro p; destruct p; assumption|exact H5]. }
  unfold session65. repeat (apply T; [| vm_compute; repeat split; discriminate|]; cbn [makes selects Z.eqb Pos.eqb]); try exact I; try (apply B; lia); cbn [sound]; try lia.
  all: first [apply B; cbn [makes asm]; lia|repeat constructor; lia|unfold asm; cbn [makes sound]; lia].
Qed.

(** A program that lives: blocks are added to it by histories of calls, each ended by a finalize, and
    between them its jumps and calls are patched. *)
From Verif Require Import Base ModelMem ModelSyntax ModelMacro SpecAsm SpecState SpecHist SpecProg SpecMulti.
Local Open Scope list_scope.
Local Open Scope Z_scope.

(** The names of labels in a block. *)
Definition names (b : blk) : list string := body_labels (b_body b) ++ defined (b_body b).
(** A direct jump or call, to [y] instead. *)
Definition jump_to (y : string) (i : inst) : option inst :=
  match i with IJmp (DestRel _) => Some (IJmp (DestRel y)) | ICall (DestRel _) => Some (ICall (DestRel y)) | _ => None end.
(** Label [l] is defined in block [b] just before its statement [k]. *)
Definition patch_point (b : blk) (l : label) (k : nat) : Prop :=
  exists j x, nth_error (b_body b) j = Some (ILabel x) /\ b_lenv b x = l /\ (j < k)%nat /\
    forall n i, (j < n < k)%nat -> nth_error (b_body b) n = Some i -> exists z, i = ILabel z.
(** Block [b'] is block [b] with statement [k], a direct jump or call, going to label [d]: by some name [y]
    that stands for [d], while the names in [b] stand for what they did. *)
Definition retargeted (b : blk) (k : nat) (d : label) (b' : blk) : Prop :=
  exists y lenv' pre i j post, b_body b = pre ++ i :: post /\ List.length pre = k /\ jump_to y i = Some j /\
    lenv' y = d /\ (forall x, In x (names b) -> lenv' x = b_lenv b x) /\
    b' = mkBlk (b_ev b) lenv' (b_env b) (pre ++ j :: post).
(** The two calls that patch the jump at label [l] to go to label [d]. *)
Definition patches (s : jit) (o : op) (l d : label) : Prop :=
  o = OPatch l d \/ exists a, label_addr s l = Some a /\ o = OPatchAddr a d.

(** [lives s0 s prog]: the calls since [s0] led to [s] and their source is [prog]. *)
Inductive lives (s0 : jit) : jit -> list blk -> Prop :=
| lives_none : lives s0 s0 []
| lives_grow ops s s' prog : lives s0 s prog -> forallb api ops = true -> run (ops ++ [OFinalize]) s = Some s' ->
    bound_once (ops ++ [OFinalize]) s -> complete ops s s' -> lives s0 s' (prog ++ blocks ops s)
| lives_patch o l d k y s s' pre b b' post : lives s0 s (pre ++ b :: post) -> patch_point b l k -> patches s o l d ->
    step o s = Ok y s' -> retargeted b k d b' -> lives s0 s' (pre ++ b' :: post).

(** Two places, the first assembled earlier: on different pages or the second behind the first. *)
Definition behind (w v : place_of) : Prop := fst w = fst v -> last (snd w) 0 <= nth 0 (snd v) 0.

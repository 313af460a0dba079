(** Assemblers that share a memory: what can be read of them, and how their code runs. *)
From Verif Require Import Base ModelMem ModelPos ModelEnc ModelSyntax ModelMacro SpecX86 SpecAsm SpecTaken SpecState SpecHist Emit SpecProg SpecScope SpecMulti SpecLive LivePatch SpecShare ShareFacts ShareRun.
Local Notation length := List.length.
Local Open Scope list_scope.
Local Open Scope Z_scope.

Lemma same_looks s1 s2 : same_jit s1 s2 -> looks_same s1 s2.
Proof.
  intros ((B & C & P & L) & Mm).
  assert (R : forall a n, read (mem s1) a n = read (mem s2) a n) by (intros; apply read_ext; intros; apply Mm).
  assert (S : as_slice s1 = as_slice s2) by (unfold as_slice, contents; rewrite B, C, P; apply R).
  assert (A : forall p x, addr s1 p x = addr s2 p x) by (intros; unfold addr, contents; rewrite B; reflexivity).
  repeat apply conj.
  - exact S.
  - unfold dump_slice. cbv zeta. rewrite S, C, P. reflexivity.
  - unfold get_current. rewrite C, P. reflexivity.
  - unfold get_page. rewrite C. reflexivity.
  - intro a. unfold include, contents. rewrite B, C. reflexivity.
  - unfold get_current_address, bind, ModelMem.get, codeptr. rewrite A, C, P. destruct (_ =? 0); reflexivity.
  - intro l. unfold get_label_address, get_label_pos, bind, ModelMem.get, codeptr. rewrite L. destruct (nth_error _ _) as [i|]; [|reflexivity].
    destruct (loc i) as [[p x]|]; [|reflexivity]. rewrite A. destruct (_ =? 0); reflexivity.
  - intro l. unfold get_label_u64, get_label_pos, bind, ModelMem.get. rewrite L. destruct (nth_error _ _) as [i|]; [|reflexivity].
    destruct (loc i) as [[p x]|]; [|reflexivity]. rewrite A. reflexivity.
  - intros n pos. assert (K : forall p, answer (peek p pos s1) = answer (peek p pos s2)) by (intro p; unfold peek; destruct (_ <=? _); cbn [answer]; [reflexivity|rewrite A, Mm; reflexivity]).
    unfold ModelPos.index, on_cur, on_page. destruct n as [n|]; [destruct (pid_of n); [apply K|reflexivity]|rewrite C; apply K].
Qed.
Lemma share_outside k x : forall es w, (forall j, sane (objs w j)) -> only_calls es = true -> orderly k es w ->
  (forall j o, In (Call j o) es -> ~ owned (base (objs w j)) x) -> shared (history es w) x = shared w x.
Proof.
  induction es as [|e r IH]; intros w Hw Hc Ho Hx; [reflexivity|]. rewrite history_cons. destruct e as [j o|m]; [|discriminate Hc].
  inversion Ho as [|? ? ? ? Ha Hp Hr|]; subst.
  assert (Sj : sane (view w j)) by (apply (sane_knows (objs w j)); [reflexivity|apply Hw]).
  rewrite IH; auto.
  - cbn [happen shared]. apply (step_inside o (view w j) x Sj Hp). apply (Hx j o). left. reflexivity.
  - intro i. rewrite objs_call. destruct (Nat.eqb i j); [|apply Hw]. apply (sane_step o (view w j) Sj).
  - intros i o' Hi. rewrite objs_call. destruct (Nat.eqb_spec i j) as [->|]; [|apply (Hx i o'); right; exact Hi].
    rewrite (proj2 (sane_step o (view w j) Sj)). apply (Hx j o'). right. exact Hi.
Qed.
Lemma share_untouched k es bs m x : only_calls es = true -> orderly k es (fresh bs m) -> (forall j o, In (Call j o) es -> ~ owned (bs j) x) ->
  shared (history es (fresh bs m)) x = m x.
Proof. intros Hc Ho Hx. apply (share_outside k x es (fresh bs m)); auto. intro j. apply sane_new. Qed.
Lemma mrun_ext mstate (sem : ins -> Z -> mstate -> option (mstate * ctl)) m m' : (forall x, m x = m' x) ->
  forall n pc st, mrun mstate sem m n pc st = mrun mstate sem m' n pc st.
Proof.
  intros E. assert (S : forall pc st, mstep mstate sem m pc st = mstep mstate sem m' pc st).
  { intros pc st. unfold mstep. rewrite (read_ext m m') by (intros; apply E). reflexivity. }
  induction n as [|n IH]; intros pc st; cbn [mrun]; [reflexivity|]. rewrite S. destruct (mstep _ _ _ _ _) as [[a b]|]; [apply IH|reflexivity].
Qed.
Lemma share_runs mstate sem k es bs m prog :
  let w := history es (fresh bs m) in let s0 := jit_new (bs k) (around (bs k) m (shared w)) in let s := run_any (calls_on k es) s0 in
  (forall x y next st, same_ins x y -> sem x next st = sem y next st) -> orderly k es (fresh bs m) -> lives s0 s prog ->
  exists ws, Forall2 (placed s) prog ws /\
    forall n v st, proper prog v -> same_prun mstate sem (mrun mstate sem (shared w)) prog (final s) (marks_of s ws) n v st.
Proof.
  intros w s0 s Hsem Ho Hl. destruct (live_runs mstate sem s0 s prog Hsem (reached_new _ _) Hl) as (ws & H1 & H2 & H3).
  exists ws. split; [exact H1|]. intros n v st Hv. specialize (H3 n v st Hv).
  destruct (share_alone k es bs m Ho) as [_ Mm]. fold w in Mm. fold s0 in Mm. fold s in Mm. cbn [view mem] in Mm.
  unfold same_prun in *. destruct (prun _ _ _ _ _ _ _ _) as [w' st'|j a st'|]; rewrite (mrun_ext mstate sem _ _ Mm); exact H3.
Qed.

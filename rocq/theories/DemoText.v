(** Writing example programs as text: a lexer for the tokens rustc hands to the macro and
    an evaluator for the Rust expressions that occur in the examples.  Neither is part of
    monoasm; both serve only to make the examples readable. *)
From Verif Require Import Base ModelSyntax ModelMacro ModelParse.
Local Open Scope string_scope.
Local Open Scope Z_scope.

(** ** Lexer *)
Definition code (c : ascii) : Z := Z.of_nat (nat_of_ascii c).
Definition digit_in (b : Z) (c : ascii) : option Z :=
  let n := code c in
  let d := if (48 <=? n) && (n <=? 57) then n - 48 else if (97 <=? n) && (n <=? 102) then n - 87 else if (65 <=? n) && (n <=? 70) then n - 55 else 99 in
  if d <? b then Some d else None.
Definition is_alnum (c : ascii) : bool :=
  let n := code c in
  ((48 <=? n) && (n <=? 57)) || ((65 <=? n) && (n <=? 90)) || ((97 <=? n) && (n <=? 122)) || (n =? 95).
Definition is_digit (c : ascii) : bool := (48 <=? code c) && (code c <=? 57).
Definition is_space (c : ascii) : bool := (code c =? 32) || (code c =? 10) || (code c =? 9).
(** The longest prefix of word characters. *)
Fixpoint word (s : string) : string * string :=
  match s with
  | String c r => if is_alnum c then let (w, t) := word r in (String c w, t) else (EmptyString, s)
  | EmptyString => (EmptyString, EmptyString)
  end.
(** Digits of base [b]; underscores are skipped; a type suffix ends the number. *)
Fixpoint number (b : Z) (s : string) (acc : Z) : Z :=
  match s with
  | String c r => if (code c =? 95) then number b r acc else match digit_in b c with Some d => number b r (b * acc + d) | None => acc end
  | EmptyString => acc
  end.
Definition literal (w : string) : Z :=
  match w with String "0" (String "x" r) => number 16 r 0 | _ => number 10 w 0 end.
Definition opening (c : ascii) : option delim :=
  if code c =? 40 then Some Paren else if code c =? 91 then Some Bracket else if code c =? 123 then Some Brace else None.
Definition closing (c : ascii) : bool := (code c =? 41) || (code c =? 93) || (code c =? 125).
(** [acc]: the tokens of the innermost open group, last first; [stack]: those of the outer ones. *)
Fixpoint lex_from (n : nat) (s : string) (acc : list tok) (stack : list (delim * list tok)) : option (list tok) :=
  match n, s with
  | _, EmptyString => match stack with [] => Some (rev acc) | _ => None end
  | O, _ => None
  | S n', String c r =>
      if is_space c then lex_from n' r acc stack
      else if is_alnum c then
        let (w, t) := word s in lex_from n' t ((if is_digit c then TInt (literal w) else TIdent w) :: acc) stack
      else match opening c with
      | Some d => lex_from n' r [] ((d, acc) :: stack)
      | None =>
          if closing c then match stack with (d, outer) :: st => lex_from n' r (TGroup d (rev acc) :: outer) st | [] => None end
          else lex_from n' r (TPunct c :: acc) stack
      end
  end.
Definition lex (s : string) : list tok := match lex_from (String.length s) s [] [] with Some ts => ts | None => [TOther] end.
(** The statements of monoasm!(jit, text). *)
Definition stmts (text : string) : list inst := match p_stmts (fun _ => true) true (lex text) with Some l => l | None => [] end.

(** ** Expressions: variables, literals, parentheses, + - * % and casts *)
Definition cast (ty : string) (v : Z) : Z :=
  if String.eqb ty "u64" then u64 v else if String.eqb ty "u32" then u32 v else if String.eqb ty "u8" then u8 v
  else if String.eqb ty "i64" then i64 v else if String.eqb ty "i32" then i32 v else v.
Fixpoint casts (v : Z) (ts : list tok) : Z * list tok :=
  match ts with TIdent "as" :: TIdent ty :: r => casts (cast ty v) r | _ => (v, ts) end.
(** The last name of a path. *)
Fixpoint path (x : string) (ts : list tok) : string * list tok :=
  match ts with TPunct ":" :: TPunct ":" :: TIdent y :: r => path y r | _ => (x, ts) end.
Fixpoint rust (n : nat) (r : env) (ts : list tok) : Z * list tok :=     (* a sum *)
  match n with
  | O => (0, ts)
  | S n' =>
      let atom (ts : list tok) : Z * list tok :=
        match ts with
        | TInt v :: t => casts v t
        | TIdent x :: t => let (y, t') := path x t in casts (r y) t'
        | TGroup Paren g :: t => casts (fst (rust n' r g)) t
        | _ => (0, ts)
        end in
      let product := (fix product (k : nat) (a : Z) (ts : list tok) : Z * list tok :=
        match k, ts with
        | S k', TPunct "*" :: t => let (b, t') := atom t in product k' (a * b) t'
        | S k', TPunct "%" :: t => let (b, t') := atom t in product k' (Z.rem a b) t'
        | _, _ => (a, ts)
        end) in
      let term (ts : list tok) := let (a, t) := atom ts in product n' a t in
      let sum := (fix sum (k : nat) (a : Z) (ts : list tok) : Z * list tok :=
        match k, ts with
        | S k', TPunct "+" :: t => let (b, t') := term t in sum k' (a + b) t'
        | S k', TPunct "-" :: t => let (b, t') := term t in sum k' (a - b) t'
        | _, _ => (a, ts)
        end) in
      let (a, t) := term ts in sum n' a t
  end.
Definition rust_ev (ts : list tok) (r : env) : Z := fst (rust 20 r ts).

Example lex_case : lex "subq rsp, ((locals + locals % 2)*8);" =
  [TIdent "subq"; TIdent "rsp"; TPunct ","; TGroup Paren [TGroup Paren [TIdent "locals"; TPunct "+"; TIdent "locals"; TPunct "%"; TInt 2]; TPunct "*"; TInt 8]; TPunct ";"].
Proof. vm_compute. reflexivity. Qed.
Example stmts_case : stmts "movq R(reg + 12), [rbp-(offset)];" =
  [IMovq (MovReg (RExpr (EToks [TIdent "reg"; TPunct "+"; TInt 12]))) (MovInd (mkInd (RReg 5) PScaleNone (PExpr true (EToks [TIdent "offset"]))))].
Proof. vm_compute. reflexivity. Qed.
Example rust_case : rust_ev (lex "(locals + locals % 2)*8") (fun _ => 3) = 32 /\ rust_ev (lex "0xffff_ffff_ffff_ffffu64 as i64") (fun _ => 0) = -1.
Proof. vm_compute. split; reflexivity. Qed.

From Coq Require Import Extraction ExtrOcamlBasic ExtrOcamlString.
From Verif Require Import Base ModelMem ModelSyntax ModelMacro ModelParse SpecX86 SpecAsm SpecState SpecHist MemDemo DemoText SpecGas.
(* the value of (-n) *)
Definition evN (ts : list tok) (r : env) : Z :=
  match ts with
  | [TGroup _ [TPunct _; TInt v]] | [TPunct _; TInt v] => (- v)%Z
  | _ => 0%Z
  end.
(* the specification of the assembler *)
Definition gas_of (t : string) : list Z :=
  match stmts t with
  | [i] => match denote (eval evN rD) (fun _ => 0%Z) i with
           | Some x => match gas (count_written (eval evN rD) i x) with Some b => b | None => [] end
           | None => []
           end
  | _ => []
  end.
(* the model of monoasm *)
Definition model_of (t : string) : list Z :=
  match run [OLabel; OLabel] newD with
  | Some s0 => match step (OAsm evN lenvD rD (stmts t)) s0 with Ok _ s => bytes s P0 0 (Z.to_nat (counter (pages s P0))) | Panic _ _ => [] end
  | None => []
  end.
Extraction Language OCaml.
Extraction "m.ml" gas_of model_of.

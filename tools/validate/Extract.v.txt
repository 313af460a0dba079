From Coq Require Import Extraction ExtrOcamlBasic.
From Verif Require Import Base SpecX86 SpecMachine SpecProg.
Extraction Language OCaml.
Extraction "spec.ml" decode x86 cpu_step mach ins.

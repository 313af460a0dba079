Tests of the specification (not of the model): the decoder of `SpecX86` against objdump, and
the processor of `SpecMachine` against the host's processor.  They prove nothing; they look for
misreadings of the manual.  None of the code under /repo is built or run.

In a scratch directory, with the `.vo` files built:

    cp tools/validate/* . ; mv Extract.v.txt Extract.v ; mv dec.ml.txt dec.ml ; mv sim.ml.txt sim.ml
    coqc -Q /verif/rocq/theories Verif Extract.v            # writes spec.ml, spec.mli
    ocamlfind ocamlopt spec.mli spec.ml dec.ml -o dec        # decoder
    ocamlfind ocamlopt spec.mli spec.ml sim.ml -o sim        # one step of cpu_step
    gcc -O1 hw.c -o hw                                       # one step under ptrace
    python3 cmpdec.py SEED COUNT                             # random bytes: decode against objdump
    python3 cmphw.py SEED COUNT                              # random instructions and states: sim against hw

`cmpdec.py` compares length, mnemonic and operands of every byte string the decoder accepts;
`cmphw.py` compares registers, defined flags, xmm registers, the data page and the next address.

`SpecGas` (which bytes the GNU assembler writes) and the model against GNU as, for all instructions:

    mv Gas.v.txt Gas.v ; mv gasd.ml.txt gasd.ml
    coqc -Q /verif/rocq/theories Verif Gas.v                 # writes m.ml, m.mli
    ocamlfind ocamlopt m.mli m.ml gasd.ml -o gasd
    python3 cmpgas.py gas                                    # 1374063 lines, no difference
    python3 cmpgas.py model                                  # differs on the exceptions of C67 only

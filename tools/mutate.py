"""Test the theorems against wrong programs.

usage: mutate.py BASE WORK LOG MUTATIONS.py [name ...]

BASE is a built copy of rocq/, WORK a scratch directory, MUTATIONS.py defines a list
M of (name, file, old text, new text, broken claim).  Each edit is applied to a fresh
copy of BASE and everything is rebuilt.  An Example that fails is removed and the
build resumed, so that only lemmas and theorems count.  One JSON line per edit is
appended to LOG.
"""
import json, os, re, shutil, subprocess, sys, time
base, work, log, spec = sys.argv[1:5]
only = set(sys.argv[5:])
ns = {}
exec(open(spec).read(), ns)
HEAD = re.compile(r'^\s*(?:Local\s+|Global\s+|#\[[^\]]*\]\s*)?(Lemma|Theorem|Corollary|Fact|Remark|Example|Definition|Fixpoint|Inductive|Record|Ltac|Instance|Let|Notation|Section|End|Variable|Print|From|Open|Arguments)\s+([A-Za-z_0-9\']+)?')
def blocks(path):
    out = []
    for i, l in enumerate(open(path).read().split("\n"), 1):
        m = HEAD.match(l)
        if m: out.append((i, m.group(1), m.group(2) or ""))
    return out
def graph(root):
    """(file, name) -> names it mentions, resolved through the imports."""
    text, req = {}, {}
    for f in sorted(os.listdir(root)):
        if f.endswith(".v"):
            text[f] = open(os.path.join(root, f)).read()
            req[f] = [m + ".v" for r in re.findall(r"From Verif Require Import ([^.]*)\.", text[f]) for m in r.split()]
    def closure(f, seen):
        for g in req[f]:
            if g not in seen:
                seen.add(g); closure(g, seen)
        return seen
    own, words, kind = {}, {}, {}
    for f in text:
        lines = text[f].split("\n"); bs = blocks(os.path.join(root, f)); own[f] = set()
        for (i, k, n), nxt in zip(bs, bs[1:] + [(len(lines) + 1, "", "")]):
            if k in ("Lemma", "Theorem", "Corollary", "Fact", "Remark", "Example", "Ltac", "Instance"):
                own[f].add(n); kind[f, n] = k
                words.setdefault((f, n), set()).update(re.findall(r"[A-Za-z_][A-Za-z_0-9']*", "\n".join(lines[i - 1:nxt[0] - 1])))
    deps = {}
    for (f, n), ws in words.items():
        vis = closure(f, set())
        deps[f, n] = {(g, w) for w in ws for g in ([f] if w in own[f] else [g for g in vis if w in own[g]])} - {(f, n)}
    return deps, kind
def dependents(names, deps):
    bad = set(names)
    while True:
        more = {n for n in deps if n not in bad and deps[n] & bad}
        if not more: return bad
        bad |= more
def build():
    p = subprocess.run("timeout 3000 make -j4 COQC='timeout 500 coqc' 2>&1", shell=True, cwd=work, stdout=subprocess.PIPE, text=True)
    return p.returncode, p.stdout
def attempt(name, file, old, new, claim):
    shutil.rmtree(work, ignore_errors=True)
    subprocess.run(["cp", "-a", base, work], check=True)
    path = os.path.join(work, "theories", file)
    text = open(path).read()
    if text.count(old) != 1:
        print(name, "BAD: old text occurs", text.count(old), "times"); return
    open(path, "w").write(text.replace(old, new))
    defn = [b for b in blocks(os.path.join(base, "theories", file)) if b[0] <= text[:text.index(old)].count("\n") + 1 and b[1] in ("Definition", "Fixpoint", "Inductive", "Record")][-1][2]
    deps, kind = graph(os.path.join(base, "theories"))
    failed, examples, t0 = [], [], time.time()
    for _ in range(8):
        rc, out = build()
        failed, ex = [], []
        if rc == 0: break
        for m in re.finditer(r'File "\./theories/(\w+\.v)", line (\d+)(?:-\d+)?, characters [^\n]*\n((?:.|\n)*?)(?=\nmake|\nFile|\Z)', out):
            if "Error" not in m.group(3): continue
            f, ln = m.group(1), int(m.group(2))
            bs = [b for b in blocks(os.path.join(work, "theories", f)) if b[0] <= ln]
            if f == file and bs and bs[-1][1] in ("Definition", "Fixpoint"):
                print(name, "BAD EDIT", m.group(3)[:400]); return
            b = bs[-1] if bs else (0, "", f)
            (ex if b[1] == "Example" else failed).append((f, b[2], b[0]))
        tmo = re.findall(r'\[[^\]]*: theories/(\w+)\.vo\] Error 124', out)
        for t in tmo: failed.append((t + ".v", "(timeout)", 0))
        if not ex: break
        for f, n, ln in ex:
            examples.append(n)
            p = os.path.join(work, "theories", f)
            ls = open(p).read().split("\n")
            j = ln - 1
            while not re.search(r'\b(Qed|Defined)\.\s*$', ls[j]): j += 1
            del ls[ln - 1:j + 1]
            # keep line-independent text otherwise
            open(p, "w").write("\n".join(ls))
    props = sorted(n for f, n in dependents([(f, n) for f, n, _ in failed], deps) if f.startswith("Props_") and kind.get((f, n)) == "Theorem")
    for f, n, _ in failed:
        if n == "(timeout)": props.append("all theorems of files importing " + f)
    e = {"definition": defn, "edit": {"file": file, "old": old, "new": new}, "claim_broken": claim,
         "lemmas_failed": sorted({n for _, n, _ in failed}), "examples_failed": sorted(set(examples)),
         "theorems_failed": props, "theorems_tightened": []}
    open(log, "a").write(json.dumps(e) + "\n")
    print(f"{name}: {'SURVIVED' if not failed else 'killed'} {int(time.time()-t0)}s lemmas={e['lemmas_failed']} examples={e['examples_failed']} props={props}", flush=True)
for m in ns["M"]:
    if not only or m[0] in only: attempt(*m)

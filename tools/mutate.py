"""Check which theorems notice a wrong program.

usage: mutate.py MUTATIONS.json RESULTS.jsonl
Each mutation {id, file, old, new, claim, definition} is applied to a scratch copy of the
theories.  Every proof that no longer goes through is cut out there (the scratch copy is thrown
away), and a theorem of MANIFEST.json counts as failed if it depends on such a proof.
"""
import json, os, re, shutil, subprocess, sys
ROOT = os.path.join(os.path.dirname(os.path.abspath(__file__)), "..")
TH = os.path.join(ROOT, "rocq", "theories")
ORDER = [l.strip()[9:-2] for l in open(os.path.join(ROOT, "rocq", "_CoqProject")) if l.startswith("theories/")]
def requires(f):
    """The files of this project that f requires."""
    t = open(os.path.join(TH, f + ".v")).read()
    return {n for m in re.finditer(r'From Verif Require (?:Import |Export )?(.*?)\.\s', t, re.S) for n in m.group(1).split()}
def affected(files):
    """The edited files and everything that depends on them, in build order."""
    bad = set(files)
    for f in ORDER:
        if requires(f) & bad: bad.add(f)
    return [f for f in ORDER if f in bad]
def decl_name(text, pos):
    m = None
    for m in re.finditer(r'^\s*(?:Local |Global )?(?:Theorem|Lemma|Example|Corollary|Fact|Remark|Definition|Fixpoint|Goal|Instance)\s+([\w\']+)', text[:pos], re.M): pass
    return m.group(1) if m else '?'
def run(mut, scratch):
    if os.path.exists(scratch): shutil.rmtree(scratch)
    os.mkdir(scratch)
    todo = affected([e["file"][:-2] for e in (mut.get("edits") or [mut])])
    for f in ORDER:
        shutil.copy(os.path.join(TH, f + ".v"), scratch)
        if f not in todo: os.symlink(os.path.abspath(os.path.join(TH, f + ".vo")), os.path.join(scratch, f + ".vo"))
    for e in mut.get("edits") or [mut]:
        p = os.path.join(scratch, e["file"]); s = open(p).read()
        if s.count(e["old"]) != 1: return dict(id=mut["id"], error="old text occurs %d times" % s.count(e["old"]))
        open(p, "w").write(s.replace(e["old"], e["new"]))
    cut, notes = [], []
    for f in todo:
        path = os.path.join(scratch, f + ".v"); tries = 0
        while True:
            tries += 1
            try:
                r = subprocess.run(["coqc", "-Q", ".", "Verif", f + ".v"], cwd=scratch, capture_output=True, text=True, timeout=600)
            except subprocess.TimeoutExpired:
                notes.append(f + ": timeout"); return dict(id=mut["id"], cut=cut, notes=notes, error="timeout")
            if r.returncode == 0: break
            m = re.search(r'File "\./%s\.v", line (\d+)' % f, r.stderr)
            text = open(path).read()
            if not m or tries > 80: return dict(id=mut["id"], cut=cut, notes=notes, error=r.stderr[-600:])
            off = len("\n".join(text.split("\n")[:int(m.group(1)) - 1])) + 1
            line = text.split("\n")[int(m.group(1)) - 1]
            mc = re.search(r'characters (\d+)', r.stderr)
            pos = off + (int(mc.group(1)) if mc else 0)
            # the proof containing pos
            starts = [x.start() for x in re.finditer(r'\bProof\.', text) if x.start() <= pos + 6]
            if not starts: return dict(id=mut["id"], cut=cut, notes=notes, error=r.stderr[-600:])
            st = starts[-1]
            en = re.search(r'\b(Qed|Defined|Admitted|Abort)\.', text[st:])
            if not en or st + en.end() < pos: return dict(id=mut["id"], cut=cut, notes=notes, error="outside proofs: " + r.stderr[-600:])
            name = decl_name(text, st); cut.append(f + "." + name)
            text = text[:st] + "Proof. Admitted." + text[st + en.end():]
            open(path, "w").write(text)
    ths = [t for c in json.load(open(os.path.join(ROOT, "MANIFEST.json")))["claims"] for t in c["theorems"]]
    ths = sorted(set(ths))   # their files: loc
    q = "".join("From Verif Require %s.\n" % f for f in todo if f.startswith("Props"))
    loc = {}
    for f in ORDER:
        t = open(os.path.join(scratch, f + ".v")).read()
        for n in re.findall(r"^(?:Theorem|Lemma|Example)\s+([\w']+)", t, re.M):
            if n in ths: loc[n] = f
    for n in ths:
        if loc[n] not in todo: continue
        q += 'Goal True. idtac "@@%s". Abort.\nPrint Assumptions %s.%s.\n' % (n, loc[n], n)
    open(os.path.join(scratch, "Zq.v"), "w").write(q)
    r = subprocess.run(["coqc", "-Q", ".", "Verif", "Zq.v"], cwd=scratch, capture_output=True, text=True)
    failed = {}
    for part in r.stdout.split("@@")[1:]:
        n, rest = part.split("\n", 1)
        if "Closed under" in rest: continue
        failed[n] = re.findall(r'^([\w\'.]+)\s*:', rest, re.M)
    return dict(id=mut["id"], cut=cut, failed=failed, notes=notes, error=(r.stderr[-300:] if r.returncode else None))
if __name__ == "__main__":
    muts = json.load(open(sys.argv[1]))
    done = set()
    if os.path.exists(sys.argv[2]): done = {json.loads(l)["id"] for l in open(sys.argv[2])}
    scratch = sys.argv[3] if len(sys.argv) > 3 else "/tmp/mut/scratch"
    for m in muts:
        if m["id"] in done: continue
        res = run(m, scratch)
        with open(sys.argv[2], "a") as f: f.write(json.dumps(res) + "\n")

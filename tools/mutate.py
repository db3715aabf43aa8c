#!/usr/bin/env python3
"""Seeded-bug testing: apply each mutation to a scratch copy of the model,
rebuild, and report which theorems can no longer be proved.
usage: mutate.py mutations.py [only-new]   (mutations.py defines M = [(id, file, definition, old, new, claim, claim ids)])"""
import sys, os, re, json, subprocess, shutil, runpy
SC = os.environ.get("SCRATCH", "/tmp/mut"); LOG = "/verif/seeded/LOG.jsonl"
man = json.load(open("/verif/MANIFEST.json"))
claims = {c["property"]: c["theorems"] for c in man["claims"]}
def prep():
    if not os.path.exists(SC):
        shutil.copytree("/verif/rocq", SC)
    else:
        subprocess.run(["rsync","-a","--delete","--exclude=*.vo*","--exclude=*.glob","--exclude=*.aux","/verif/rocq/",SC+"/"],check=True) if shutil.which("rsync") else None
def sh(c): return subprocess.run(c, shell=True, capture_output=True, text=True)
def where(f, line):
    name = "?"
    for i, l in enumerate(open(f), 1):
        if i > line: break
        m = re.match(r"\s*(?:Local |Global )?(Theorem|Lemma|Corollary|Example|Definition|Fixpoint|Record|Fact)\s+([\w']+)", l)
        if m: name = m.group(2)
    return name
done = set()
if os.path.exists(LOG):
    for l in open(LOG):
        d = json.loads(l); done.add((d["definition"], d["edit"]))
ms = runpy.run_path(sys.argv[1])["M"]
thfile = {}
for root in ["/verif/rocq/theories"]:
    for fn in os.listdir(root):
        if fn.endswith(".v"):
            for m in re.finditer(r"^\s*(?:Theorem|Lemma|Corollary)\s+([\w']+)", open(root+"/"+fn).read(), re.M): thfile[m.group(1)] = fn
for (fn, df, old, new, claim, ids) in ms:
    edit = f"{old.strip()}  ==>  {new.strip()}"
    key = (f"{fn}: {df}", edit)
    if key in done: continue
    if os.path.exists(SC): shutil.rmtree(SC)
    # work on a copy; keep compiled files so that only dependents are rebuilt
    shutil.copytree(os.environ.get("SRC","/verif/rocq"), SC, symlinks=True, copy_function=shutil.copy2)
    p = f"{SC}/theories/{fn}"; s = open(p).read()
    if s.count(old) < 1: print("NOT FOUND", fn, df, old); continue
    i = s.index(df) if df in s else 0
    # replace the first occurrence after the definition header
    m = re.search(r"(Definition|Fixpoint)\s+%s\b" % re.escape(df), s)
    start = m.start() if m else 0
    j = s.find(old, start)
    if j < 0: print("NOT FOUND after def", fn, df, old); continue
    open(p, "w").write(s[:j] + new + s[j+len(old):])
    r = sh(f"cd {SC} && make -k -j3 2>&1")
    fails = []
    for m in re.finditer(r'File "\./theories/(\w+\.v)", line (\d+).*?\nError', r.stdout, re.S):
        pass
    for blk in re.split(r'(?=File "\./theories/)', r.stdout):
        m = re.match(r'File "\./theories/(\w+\.v)", line (\d+)[^\n]*\n(?:.*?\n)*?\s*Error', blk)
        if m and "Warning" not in blk.split("Error")[0][:200]: fails.append((m.group(1), where(f"{SC}/theories/{m.group(1)}", int(m.group(2)))))
    unbuilt = set(f for f in os.listdir(SC+"/theories") if f.endswith(".v") and (not os.path.exists(SC+"/theories/"+f+"o") or os.path.getmtime(SC+"/theories/"+f+"o") < os.path.getmtime(p) and False))
    broken = [t for c in ids for t in claims.get(c, []) if thfile.get(t) in unbuilt or not os.path.exists(SC+"/theories/"+thfile.get(t,"x.v")+"o")]
    # make removes stale .vo of failed targets only; treat dependents of failures as unbuilt
    if fails:
        ff = [a for a,_ in fails]
        dep = sh(f"cd {SC} && coqdep -f _CoqProject 2>/dev/null").stdout
        g = {}
        for l in dep.splitlines():
            m = re.match(r"theories/(\w+)\.vo[^:]*:(.*)", l)
            if m: g[m.group(1)+".v"] = set(x+".v" for x in re.findall(r"theories/(\w+)\.vo\b", m.group(2)))
        bad = set(ff); ch = True
        while ch:
            ch = False
            for k, v in g.items():
                if k not in bad and v & bad: bad.add(k); ch = True
        broken = [t for c in ids for t in claims.get(c, []) if thfile.get(t) in bad]
    rec = {"definition": key[0], "edit": edit, "claim": claim, "properties": ids,
           "first_failures": [f"{a}:{b}" for a, b in fails], "theorems_failed": broken,
           "verdict": "MODEL-BROKEN" if any(a == fn for a, _ in fails) else "caught" if broken else ("MODEL-BROKEN" if r.returncode and not fails else "SURVIVED"), "theorems_tightened": []}
    print(json.dumps(rec), flush=True)
    if rec["verdict"] == "caught" and "--dry" not in sys.argv:
        open(LOG, "a").write(json.dumps(rec) + "\n")
    if rec["verdict"] != "caught": open("/tmp/mut_fail_%d.log" % len(done), "w").write(r.stdout[-5000:])
    done.add(key)

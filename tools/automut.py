#!/usr/bin/env python3
"""Automatic mutation of the model files: one small operator change at a time.
usage: automut.py OUT SEED PER_DEF [files...]   (SRC = compiled copy, SCRATCH = work dir)
A mutant that does not type-check is dropped; otherwise the dependents are built
until the first failure, which is reported; SURVIVED means that everything built."""
import sys, os, re, json, random, subprocess, shutil, glob
SRC = os.environ.get("SRC", "/tmp/mutsrc"); SC = os.environ.get("SCRATCH", "/tmp/auto"); J = os.environ.get("J", "2")
out, seed, per = sys.argv[1], int(sys.argv[2]), int(sys.argv[3])
files = sys.argv[4:] or sorted(os.path.basename(f) for f in glob.glob(SRC + "/theories/*Model.v"))
rnd = random.Random(seed)
PAIRS = [("<?", "<=?"), ("<=?", "<?"), ("=?", "<=?"), ("&&", "||"), ("||", "&&"), ("fst ", "snd "), ("snd ", "fst "), ("true", "false"),
  ("false", "true"), ("firstn", "skipn"), ("skipn", "firstn"), (" + ", " - "), (" - ", " + "), (" * ", " + "), ("negb ", ""), ("S (", "("),
  (" + 1", ""), (" - 1", ""), (" ++ ", None), ("Err InvalidArgument", "Err Internal"), ("Err Internal", "Err InvalidArgument"), ("UB", "Abort"), ("Abort", "UB"),
  ("then ", None), (" mod ", " / "), (" / ", " mod "), ("rev ", ""), ("0", "1"), ("1", "0"), ("2", "3"), ("tp1", "tp"), ("hd ", "last ")]
def sh(c, t=3000):
    try: return subprocess.run(c, shell=True, capture_output=True, text=True, timeout=t)
    except subprocess.TimeoutExpired as e:
        class R: returncode = 124; stdout = "TIMEOUT"; stderr = ""
        return R
def where(f, line):
    name = "?"
    for i, l in enumerate(open(f), 1):
        if i > line: break
        m = re.match(r"\s*(?:Local |Global )?(Theorem|Lemma|Corollary|Example|Definition|Fixpoint|Record|Fact)\s+([\w']+)", l)
        if m: name = m.group(2)
    return name
def strip(s):  # blank out comments, keep offsets
    r = list(s); d = 0; i = 0
    while i < len(s):
        if s.startswith("(*", i): d += 1; r[i] = r[i+1] = " "; i += 2; continue
        if s.startswith("*)", i) and d: d -= 1; r[i] = r[i+1] = " "; i += 2; continue
        if d and s[i] != "\n": r[i] = " "
        i += 1
    return "".join(r)
def mutants(body):
    res = []
    for a, b in PAIRS:
        for m in re.finditer(re.escape(a), body):
            i = m.start()
            if a[0].isalnum() and i and (body[i-1].isalnum() or body[i-1] in "_'."): continue
            e = m.end()
            if a[-1].isalnum() and e < len(body) and (body[e].isalnum() or body[e] in "_'%"): continue
            if a == "<?" and body[i-1:i] == "=": continue
            if a == "=?" and body[i-1:i] == "<": continue
            if b is None and a == " ++ ": continue
            if a == "then ":
                m2 = re.match(r"if (.*?) then ", body[:e][body[:e].rfind("if "):], re.S)
                k = body[:e].rfind("if ")
                if m2 and k >= 0: res.append((k, e, "if negb (" + m2.group(1) + ") then ")); continue
                continue
            res.append((i, e, b))
    # swap two adjacent simple arguments
    for m in re.finditer(r"\b([a-z_]\w*)\s([a-z_]\w*)\b", body):
        res.append((m.start(), m.end(), m.group(2) + " " + m.group(1)))
    return res
done = set()
if os.path.exists(out):
    for l in open(out):
        d = json.loads(l); done.add((d["file"], d["definition"], seed))
jobs = []
for fn in files:
    s = open(f"{SRC}/theories/{fn}").read(); c = strip(s)
    for m in re.finditer(r"^(Definition|Fixpoint)\s+([\w']+)", c, re.M):
        e = re.search(r"\.\s*\n", c[m.start():]); end = m.start() + e.end()
        eq = c.find(":=", m.start(), end)
        if eq < 0: continue
        jobs.append((fn, m.group(2), eq + 2, end, s, c))
rnd.shuffle(jobs)
for fn, df, a, b, s, c in jobs:
    if (fn, df, seed) in done: continue
    ms = mutants(c[a:b]); rnd.shuffle(ms); n = 0; tries = 0
    for i, e, new in ms:
        if n >= per or tries > 12: break
        tries += 1
        if not os.path.exists(SC): sh(f"cp -a {SRC} {SC}")
        sh(f"rsync -a --delete {SRC}/ {SC}/" if shutil.which("rsync") else f"rm -rf {SC}; cp -a {SRC} {SC}")
        p = f"{SC}/theories/{fn}"; t = s[:a+i] + new + s[a+e:]
        open(p, "w").write(t)
        ctx = s[max(a, a+i-40):a+e+40].replace("\n", " "); cx2 = (s[max(a, a+i-40):a+i] + new + s[a+e:a+e+40]).replace("\n", " ")
        r = sh(f"cd {SC} && coqc -Q theories Verif theories/{fn} 2>&1", 300)
        if r.returncode: continue
        n += 1
        r = sh(f"cd {SC} && make -j{J} 2>&1", 2400)
        fails = []
        for blk in re.split(r'(?=File "\./theories/)', r.stdout):
            m = re.match(r'File "\./theories/(\w+\.v)", line (\d+)[^\n]*\n(?:.*?\n)*?\s*Error', blk)
            if m and "Warning" not in blk.split("Error")[0][:200]: fails.append(m.group(1) + ":" + where(f"{SC}/theories/{m.group(1)}", int(m.group(2))))
        rec = {"file": fn, "definition": df, "old": ctx, "new": cx2, "first": fails, "verdict": "caught" if r.returncode and fails else "TIMEOUT" if r.returncode == 124 else "SURVIVED" if r.returncode == 0 else "?"}
        open(out, "a").write(json.dumps(rec) + "\n")
    if n == 0: open(out, "a").write(json.dumps({"file": fn, "definition": df, "verdict": "none"}) + "\n")

"""Apply edits to the model in scratch copies, rebuild, and report which theorems fail.

usage: mutate.py edits.json worker_count
edits.json: list of {"file", "definition", "old", "new", "edit", "claim"}; one line per edit is appended to
seeded/LOG.jsonl. A lemma whose proof fails is replaced by Admitted so that everything else can be rebuilt; a theorem
fails when its Print Assumptions then lists such a lemma."""
import json, os, re, shutil, subprocess, sys, threading, queue
root = os.path.dirname(os.path.dirname(os.path.abspath(__file__)))
STD = ("ClassicalDedekindReals.", "FunctionalExtensionality.", "Classical_Prop.", "sig_", "functional_ext", "classic")
TIMEOUT = 120
base = f"/tmp/mut/base{os.getpid()}"  # the sources and compiled files at the start
PROPS = {"M_Translate": ["Prop_Translate", "Prop_Mapper", "Prop_Utility"], "M_Mapper": ["Prop_Mapper", "Prop_Utility", "Prop_Io"],
         "M_Utility": ["Prop_Utility", "Prop_Io"], "M_Io": ["Prop_Io"]}
HEAD = re.compile(r"^\s*(?:Local |Global |#\[\w+\] )*(Lemma|Theorem|Example|Corollary|Fact|Remark|Instance|Definition)\s+(\w+'*)", re.M)


def deps(d):
    order = [l.strip()[9:-2] for l in open(f"{d}/_CoqProject") if l.startswith("theories/")]
    req = {}
    for m in order:
        t = open(f"{d}/theories/{m}.v").read()
        req[m] = set()
        for r in re.findall(r"From Verif Require (?:Import )?([^.]*)\.", t):
            req[m] |= set(r.split())
    done = []

    def visit(m):
        if m not in done:
            for r in sorted(req[m], key=order.index):
                visit(r)
            done.append(m)
    for m in order:
        visit(m)
    return done, req


def coqc(d, m):
    p = subprocess.Popen(["bash", "-c", f"ulimit -v 7000000; exec timeout {900 if m.startswith('Prop_') else TIMEOUT} coqc -time -Q . Verif {m}.v"], cwd=f"{d}/theories",
                         stdout=subprocess.PIPE, stderr=subprocess.PIPE, text=True, errors="replace")
    out, err = p.communicate()
    return p.returncode, out, err


def admit_at(text, pos):
    heads = [h for h in HEAD.finditer(text) if h.start() <= pos]
    for h in reversed(heads):
        pr = re.compile(r"\bProof\b[^.]*\.").search(text, h.end())
        nxt = HEAD.search(text, h.end())
        if not pr or (nxt and nxt.start() < pr.start() and h.group(1) in ("Definition",)):
            continue
        q = re.compile(r"\b(Qed|Defined)\.").search(text, pr.end())
        if not q:
            continue
        if pos <= q.end():
            in_stmt = pos < pr.start()
            return h.group(2), h.start(), pr.start(), q.end(), in_stmt
    return None


def run(d, e):
    order, req = deps(d)
    for m in order:
        shutil.copy(f"{base}/theories/{m}.v", f"{d}/theories/{m}.v")
    p = f"{d}/theories/{e['file']}.v"
    t = open(p).read()
    if t.count(e["old"]) != 1:
        return None, f"old text occurs {t.count(e['old'])} times"
    open(p, "w").write(t.replace(e["old"], e["new"]))
    dirty, failed, thms = {e["file"]}, [], []
    # theorem files to rebuild: those given, or all that depend on the edited file
    props = e.get("props") or PROPS.get(e["file"]) or [m for m in order if m.startswith("Prop_")]
    need, todo = set(), list(props)
    while todo:
        m = todo.pop()
        if m not in need:
            need.add(m)
            todo += list(req.get(m, ()))
    for m in order:
        if m not in need:
            continue
        if m != e["file"] and not (req[m] & dirty):
            continue
        dirty.add(m)
        for _ in range(60):
            rc, out, err = coqc(d, m)
            if rc == 0:
                break
            text = open(f"{d}/theories/{m}.v").read()
            mm = re.search(r"line (\d+), characters (\d+)-", err)
            if rc == 124 or not mm:
                ch = re.findall(r"^Chars (\d+) - (\d+)", out, re.M)
                pos = len(text.encode()[:int(ch[-1][1])].decode(errors="replace")) + 2 if ch else 0
            else:
                lines = text.split("\n")
                pos = sum(len(l) + 1 for l in lines[:int(mm.group(1)) - 1]) + int(mm.group(2))
            a = admit_at(text, pos)
            if a is None or (m == e["file"]):
                return None, f"{m} does not compile: {err[-300:]}"
            name, hs, ps, qe, in_stmt = a
            failed.append(f"{m}.{name}")
            if in_stmt or m.startswith("Prop_"):
                text = text[:hs] + f"(* {name} *)" + text[qe:]
                text = re.sub(rf"Print Assumptions {name}\.", "", text)
                if m.startswith("Prop_") and re.match(r"C\d+_(?!nonvac)", name):
                    thms.append(name)
            else:
                text = text[:ps] + "Proof. Admitted." + text[qe:]
            open(f"{d}/theories/{m}.v", "w").write(text)
        else:
            return None, f"{m}: too many failures"
        if m.startswith("Prop_"):
            names = re.findall(r"Print Assumptions (\w+)\.", open(f"{d}/theories/{m}.v").read())
            out = "\n".join(l for l in out.split("\n") if not l.startswith("Chars "))
            blocks = re.split(r"^(?=Closed under|Axioms:)", out, flags=re.M)[1:]
            for n, b in zip(names, blocks):
                ax = [x for x in re.findall(r"^(\S+)(?: :|$)", b, re.M) if not x.startswith(STD) and x not in ("Closed", "Axioms:")]
                ax = [x for x in ax if not x.startswith(STD)]
                if ax:
                    thms.append(n)
    return failed, thms


def worker(i, q, lock):
    d = f"/tmp/mut/w{os.getpid()}_{i}"
    shutil.rmtree(d, ignore_errors=True)
    shutil.copytree(base, d)
    while True:
        try:
            e = q.get_nowait()
        except queue.Empty:
            shutil.rmtree(d)
            return
        failed, thms = run(d, e)
        # restore compiled files
        shutil.rmtree(d)
        shutil.copytree(base, d)
        with lock:
            if failed is None:
                print("BAD", e["definition"], e["edit"], thms, flush=True)
                continue
            rec = {"definition": f"{e['file']}.{e['definition']}", "edit": e["edit"], "claim": e["claim"],
                   "failed_lemmas": failed, "failed": sorted(set(thms)), "tightened": e.get("tightened", [])}
            print(json.dumps(rec), flush=True)
            with open(f"{root}/seeded/LOG.jsonl", "a") as f:
                f.write(json.dumps(rec) + "\n")


if __name__ == "__main__":
    shutil.copytree(f"{root}/rocq", base)
    q = queue.Queue()
    done = set()
    for l in open(f"{root}/seeded/LOG.jsonl"):
        r = json.loads(l)
        done.add((r["definition"], r["edit"], bool(r["tightened"])))
    for e in json.load(open(sys.argv[1])):
        # edits already in the log are not repeated, except after a theorem was tightened
        if (f"{e['file']}.{e['definition']}", e["edit"], bool(e.get("tightened"))) not in done:
            q.put(e)
    lock = threading.Lock()
    ts = [threading.Thread(target=worker, args=(i, q, lock)) for i in range(int(sys.argv[2]))]
    [t.start() for t in ts]
    [t.join() for t in ts]
    shutil.rmtree(base)

"""Seeded-bug testing in a scratch copy.  Usage: mutate.py prepare | mutate.py run FILE.json
FILE.json: list of {id, file, old, new, definition, edit, claim}.  Each edit is applied to a compiled copy of the
development; a proof that breaks is replaced by Admitted and the build continues; every property theorem that rests on
a broken proof is reported.  Results go to /tmp/mut/results.jsonl."""
import re, os, sys, json, subprocess, shutil
BASE, WORK = '/tmp/mut/base', '/tmp/mut/work'
ORDER = lambda: [l.strip() for l in open('/verif/tools/order.txt') if l.strip()]

def sh(cmd, cwd, t=3000):
    p = subprocess.run(cmd, shell=True, cwd=cwd, stdout=subprocess.PIPE, stderr=subprocess.STDOUT, timeout=t)
    return p.returncode, p.stdout.decode(errors='replace')

def prepare():
    shutil.rmtree(BASE, ignore_errors=True)
    shutil.copytree('/verif/rocq', BASE, ignore=shutil.ignore_patterns('*.vo*', '*.glob', '*.aux', '.*', 'Makefile*'))
    sh('coq_makefile -f _CoqProject -o Makefile', BASE)
    # 1: collect section variables used by each lemma
    using = {}
    tmp = '/tmp/mut/using'
    shutil.rmtree(tmp, ignore_errors=True); shutil.copytree(BASE, tmp)
    for f in ORDER():
        p = f'{tmp}/theories/{f}.v'
        s = open(p).read()
        open(p, 'w').write('Set Suggest Proof Using.\n' + s)
        rc, out = sh(f'timeout 900 coqc -Q theories Verif theories/{f}.v', tmp)
        if rc: print('prepare failed', f, out[-500:]); sys.exit(1)
        for m in re.finditer(r'The proof of (\S+)\s+should start with one of the following commands:\s+(Proof using[^.]*)\.', out):
            using[f + ':' + m.group(1)] = re.sub(r'\s+', ' ', m.group(2))
    json.dump(using, open('/tmp/mut/using.json', 'w'))
    rc, out = sh('make -j4', BASE)
    print('base', rc)

HEAD = re.compile(r'^\s*(?:#\[\w+\]\s*)?(?:Local |Global )?(Lemma|Theorem|Example|Corollary|Fact|Remark|Instance)\s+(\w+)')
def patch(path, f, line, using):
    s = open(path).read().split('\n')
    i = line - 1
    while i >= 0 and not HEAD.match(s[i]): i -= 1
    if i < 0: return None
    name = HEAD.match(s[i]).group(2)
    j = i
    while j < len(s) and not re.search(r'\bProof\b', s[j]): j += 1
    e = j
    while e < len(s) and not re.search(r'\b(Qed|Defined)\.', s[e]): e += 1
    if not (j <= line - 1 <= e): return None      # the error is not inside a proof
    pre = s[j][:s[j].index('Proof')]
    use = using.get(f + ':' + name)
    new = pre + ((use + '. ') if use else '') + 'Admitted.'
    post = s[e][re.search(r'\b(Qed|Defined)\.', s[e]).end():]
    s[j:e + 1] = [new + post] + [''] * (e - j)
    open(path, 'w').write('\n'.join(s))
    return name

def graph():
    """Property theorem -> the proofs it rests on (FILE:NAME), from the reference information of the compiled copy."""
    uses = {}
    for f in ORDER():
        cur = None
        for l in open(f'{BASE}/theories/{f}.glob'):
            w = l.split()
            if w[0].startswith('R') and len(w) == 5 and w[0][1:2].isdigit():
                if cur and w[1].startswith('Verif.'): uses[cur].add(w[1].split('.')[-1] + ':' + w[3])
            elif len(w) == 4 and w[0] in ('prf', 'def', 'thm', 'rec', 'ind', 'inst', 'lem', 'ex'):
                cur = f + ':' + w[3]; uses.setdefault(cur, set())
    def close(n):
        seen, todo = set(), [n]
        while todo:
            x = todo.pop()
            if x in seen: continue
            seen.add(x); todo += uses.get(x, ())
        return seen
    thms = {f + ':' + n for f in ORDER() if f.startswith('P_')
            for n in re.findall(r'^Theorem (C\d\d\w*)', open(f'{BASE}/theories/{f}.v').read(), re.M)}
    return {n.split(':')[1]: close(n) for n in thms}

def run(spec):
    DEPS = graph()
    using = json.load(open('/tmp/mut/using.json'))
    for m in json.load(open(spec)):
        sh(f'rm -rf {WORK}; cp -a {BASE} {WORK}', '/tmp')
        sh("sed -i '/Audit/d' _CoqProject; coq_makefile -f _CoqProject -o Makefile", WORK)
        p = f'{WORK}/theories/{m["file"]}.v'
        s = open(p).read()
        if s.count(m['old']) != 1:
            print(m['id'], 'SKIP: old text occurs', s.count(m['old']), 'times', flush=True); continue
        open(p, 'w').write(s.replace(m['old'], m['new']))
        admitted, note = [], ''
        for rnd in range(80):
            rc, out = sh('make -k -j2 TIMECMD="timeout 400"', WORK, 4000)
            if rc == 0: break
            errs = re.findall(r'File "(?:\./)?theories/(\w+)\.v", line (\d+), characters[^\n]*\n(?:Error|In environment|.*?Error)', out, re.S) 
            errs = re.findall(r'File "(?:\./)?theories/(\w+)\.v", line (\d+), characters \d+-\d+:\s*\nError', out)
            if not errs:
                tmo = re.findall(r'\[Makefile[^\]]*: theories/(\w+)\.vo\] Error', out)
                note = 'stuck: ' + (str(tmo) if tmo else out[-300:]); break
            bad = False
            for f, ln in set(errs):
                n = patch(f'{WORK}/theories/{f}.v', f, int(ln), using)
                if n is None: note = f'definition or statement rejected in {f}:{ln}'; bad = True
                else: admitted.append(f + ':' + n)
            if bad: break
        failed = sorted(n for n, d in DEPS.items() if d & set(admitted)) if rc == 0 else []
        r = dict(m, failed=failed, admitted=admitted, note=note)
        open('/tmp/mut/results.jsonl', 'a').write(json.dumps(r) + '\n')
        print(m['id'], 'FAILED:', failed, '| broken proofs:', len(admitted), admitted[:6], note, flush=True)

if sys.argv[1] == 'prepare': prepare()
else: run(sys.argv[2])

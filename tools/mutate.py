#!/usr/bin/env python3
"""Apply one edit to a scratch copy of the Coq development and find out which theorems no longer hold together.

usage: mutate.py MUTATIONS.json [name...]      (run outside /verif; the scratch copy is /tmp/mut/work)

Every proof that fails is replaced by Admitted, and Print Assumptions in the Props_*.v files then tells which
property theorems depend on one of these. Examples that fail are listed separately."""
import json, os, re, shutil, subprocess, sys, concurrent.futures as cf
SRC = '/verif/rocq'
WORK = os.environ.get('MUTWORK', '/tmp/mut/work')
TIMEOUT = int(os.environ.get('MUTTIMEOUT', '400'))
START = re.compile(r'^\s*(?:Local |Global |#\[[^\]]*\] ?)?(?:Program )?(Lemma|Theorem|Corollary|Fact|Example|Remark|Proposition|Instance|Definition|Fixpoint|Goal)\s+(\w+)?', re.M)

def files():
    return [l.strip()[len('theories/'):-2] for l in open(SRC + '/_CoqProject') if l.strip().endswith('.v')]

def deps():
    fs = files(); d = {}
    for f in fs:
        s = open(f'{SRC}/theories/{f}.v').read()
        r = set()
        for m in re.finditer(r'From Verif Require (?:Import|Export) ([^.]*)\.', s):
            r |= set(m.group(1).split())
        d[f] = r & set(fs)
    return d

def coqc(f):
    tf = f'{WORK}/{f}.time'
    try:
        with open(tf, 'w') as out:
            p = subprocess.run(['bash', '-c', f'ulimit -v 6000000; exec timeout {TIMEOUT} coqc -time -Q theories Verif theories/{f}.v'], cwd=WORK, stdout=out, stderr=subprocess.PIPE, text=True)
    except Exception as e:
        return 1, str(e), ''
    return p.returncode, p.stderr, open(tf).read()

def error_pos(f, err, out):
    """character offset of the failure"""
    src = open(f'{WORK}/theories/{f}.v', 'rb').read()
    m = re.search(r'line (\d+), characters (\d+)-(\d+):\s*\n?Error', err) or re.search(r'line (\d+), characters (\d+)-(\d+)', err)
    if m and 'Error' in err:
        # last location before Error
        loc = [x for x in re.finditer(r'line (\d+), characters (\d+)-(\d+)', err) if x.start() < err.index('Error')]
        line = int(loc[-1].group(1))
        lines = src.split(b'\n')
        return sum(len(l) + 1 for l in lines[:line - 1]) + int(loc[-1].group(2))
    last = 0
    for x in re.finditer(r'^Chars (\d+) - (\d+) ', out, re.M):
        last = int(x.group(2))
    return last + 2

def admit(f, pos):
    """admit the proof that contains byte offset pos; returns the lemma's name or None"""
    b = open(f'{WORK}/theories/{f}.v', 'rb').read()
    head = b[:pos].decode('utf8', 'ignore')
    s = b.decode('utf8')
    cpos = len(head)
    starts = [m for m in START.finditer(s) if m.start() <= cpos]
    if not starts: return None
    m = starts[-1]
    pr = re.compile(r'^\s*Proof\b|(?<=\s)Proof\.', re.M).search(s, m.start())
    if not pr or pr.start() > cpos + 1: return None
    q = re.compile(r'\b(Qed|Defined)\.').search(s, pr.start())
    s = s[:pr.start()] + '\nProof. Admitted.' + s[q.end():]
    open(f'{WORK}/theories/{f}.v', 'w').write(s)
    return m.group(1) + ' ' + (m.group(2) or '?')

def build(f):
    admitted = []
    while True:
        rc, err, out = coqc(f)
        if rc == 0: return admitted, out, None
        pos = error_pos(f, err, out)
        name = admit(f, pos)
        if name is None: return admitted, out, err.strip()[-400:] or 'killed'
        admitted.append(name)

def run(mut):
    shutil.rmtree(WORK, ignore_errors=True)
    subprocess.run(['cp', '-a', SRC, WORK], check=True)
    edits = mut['edits'] if 'edits' in mut else [mut]
    touched = set()
    for e in edits:
        p = f"{WORK}/theories/{e['file']}.v"
        s = open(p).read()
        if s.count(e['old']) != 1: return {'error': f"pattern occurs {s.count(e['old'])} times in {e['file']}"}
        open(p, 'w').write(s.replace(e['old'], e['new'])); touched.add(e['file'])
    d = deps(); dirty = set(touched)
    while True:
        more = {f for f in d if f not in dirty and d[f] & dirty}
        if not more: break
        dirty |= more
    for f in dirty:
        for ext in ('.vo', '.vos', '.vok', '.glob'):
            try: os.remove(f'{WORK}/theories/{f}{ext}')
            except FileNotFoundError: pass
    done, res, running = set(), {}, {}
    stuck = {}
    with cf.ThreadPoolExecutor(4) as ex:
        while True:
            for f in dirty:
                if f in done or f in stuck or f in running.values(): continue
                if d[f] & set(stuck): stuck[f] = 'needs ' + ', '.join(d[f] & set(stuck)); continue
                if (d[f] & dirty) <= done: running[ex.submit(build, f)] = f
            if not running: break
            fin, _ = cf.wait(running, return_when=cf.FIRST_COMPLETED)
            for x in fin:
                f = running.pop(x); adm, out, e = x.result(); res[f] = (adm, out)
                if e: stuck[f] = e
                else: done.add(f)
    lemmas = {f: [a.split()[1] for a in adm if not a.startswith('Example')] for f, (adm, _) in res.items()}
    lemmas = {f: v for f, v in lemmas.items() if v}
    examples = [a.split()[1] for f, (adm, _) in res.items() for a in adm if a.startswith('Example')]
    names = set(x for v in lemmas.values() for x in v)
    failed, alive = [], []
    for f in sorted(dirty):
        if not f.startswith('Props_'): continue
        src = open(f'{SRC}/theories/{f}.v').read()
        pas = re.findall(r'^Print Assumptions (\w+)\.', src, re.M)
        if f in stuck or f not in res: failed += [p + '?' for p in pas]; continue
        out = re.sub(r'^Chars .*\n?', '', res[f][1], flags=re.M)
        blocks = re.findall(r'(Closed under the global context|Axioms:\n(?:.*\n?)*?(?=Closed under the global context|Axioms:|\Z))', out)
        if len(blocks) != len(pas): failed.append(f'{f}: {len(blocks)} outputs for {len(pas)} theorems')
        for p, bl in zip(pas, blocks):
            used = set(re.findall(r'^([\w.]+)\s*(?::|$)', bl, re.M))
            used = {u.split('.')[-1] for u in used}
            (failed if used & names else alive).append(p)
    return {'lemmas': lemmas, 'failed': failed, 'alive': alive, 'examples': examples, 'stuck': stuck}

if __name__ == '__main__':
    # results already in MUTATIONS.json.out are kept: delete that file to start again
    muts = json.load(open(sys.argv[1]))
    if os.path.exists(sys.argv[1] + '.out'):
        old = {m['name']: m for m in json.load(open(sys.argv[1] + '.out')) if 'result' in m}
        for m in muts:
            o = old.get(m['name'])
            if o and all(o.get(k) == m.get(k) for k in ('old', 'new', 'edits')): m['result'] = o['result']
    for m in muts:
        if len(sys.argv) > 2 and m['name'] not in sys.argv[2:]: continue
        if len(sys.argv) == 2 and 'result' in m: continue
        r = run(m)
        print('==', m['name']); print(json.dumps(r, indent=1)[:6000], flush=True)
        m['result'] = r
        json.dump(muts, open(sys.argv[1] + '.out', 'w'), indent=1)

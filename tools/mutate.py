#!/usr/bin/env python3
"""Seeded-bug testing.  For every mutation of seeded/mutations.jsonl whose id is
not yet in seeded/LOG.jsonl: copy a built tree to a scratch directory, apply
the edit to the model, rebuild.  A lemma whose proof breaks is replaced by
Admitted and the build goes on, so that at the end Print Assumptions tells
which property theorems depend on a broken lemma."""
import json, os, re, subprocess, sys, shutil, time
ROOT = os.path.abspath(os.path.join(os.path.dirname(__file__), '..'))
SCR = os.environ.get('MSCR', '/tmp/mut')
BASE, WORK = SCR + '/base', SCR + '/work'
J = os.environ.get('MJ', '2')
TO = os.environ.get('MTO', '500')
# MFAST: build only the theorem files of the claim the edit should break
FAST = os.environ.get('MFAST')

def targets(mu):
    if not FAST: return ''
    ids = re.findall(r'C\d\d+', mu['claim'])
    fs = [f for f in sorted(os.listdir(BASE + '/theories')) if re.match(r'T[A-Z]\w*\.v$', f)
          and any(re.search(r'^Theorem %s_' % i, open(BASE + '/theories/' + f).read(), re.M) for i in ids)]
    return ' '.join('theories/%so' % f for f in fs)

def sh(cmd, cwd, to=7200):
    p = subprocess.run(cmd, shell=True, cwd=cwd, stdout=subprocess.PIPE, stderr=subprocess.STDOUT, timeout=to)
    return p.returncode, p.stdout.decode(errors='replace')

def sync_base():
    os.makedirs(SCR, exist_ok=True)
    rc, o = sh('rsync -a --delete %s/rocq/ %s/ 2>/dev/null || (rm -rf %s; cp -a %s/rocq %s)' % (ROOT, BASE, BASE, ROOT, BASE), '/')
    rc, o = sh('coq_makefile -f _CoqProject -o Makefile && make -j%s' % J, BASE)
    if rc: sys.exit('base does not build\n' + o[-2000:])

def using_table():
    """Section variables each lemma depends on (cached by file content)."""
    path = SCR + '/using.json'
    tab = json.load(open(path)) if os.path.exists(path) else {}
    import hashlib
    for f in sorted(os.listdir(BASE + '/theories')):
        if not f.endswith('.v'): continue
        src = open(BASE + '/theories/' + f).read()
        if not re.search(r'^Section ', src, re.M): continue
        h = hashlib.sha1(src.encode()).hexdigest()
        if tab.get(f, {}).get('#') == h: continue
        d = SCR + '/us'; os.makedirs(d, exist_ok=True)
        rc, o = sh('coqc -set "Suggest Proof Using" -Q theories Verif -o %s/%so theories/%s' % (d, f, f), BASE)
        t = {'#': h}
        for m in re.finditer(r'The proof of (\S+)\s+should start with one of the following commands:\s+Proof using ([^.]*)\.', o):
            t[m.group(1)] = ' '.join(m.group(2).split())
        tab[f] = t
        json.dump(tab, open(path, 'w'))
    return tab

STMT = re.compile(r'^\s*(?:Local |Global )?(Lemma|Theorem|Example|Corollary|Instance|Remark|Fact)\s+([\w\']+)', re.M)
def admit_at(path, f, pos, tab):
    """Replace the proof around character pos by Admitted; return its name."""
    src = open(path).read()
    last = None
    for m in STMT.finditer(src):
        if m.start() > pos: break
        last = m
    if last is None: return None
    p = re.compile(r'\bProof\b[^.]*\.').search(src, last.end())
    q = re.compile(r'\b(Qed|Defined|Admitted)\.').search(src, p.end()) if p else None
    if not q or p.start() > pos or pos > q.end() + 1 or q.group(1) == 'Admitted': return None
    name = last.group(2)
    us = tab.get(f, {}).get(name)
    new = src[:p.start()] + ('Proof using %s. Admitted.' % us if us is not None else 'Proof. Admitted.') + src[q.end():]
    open(path, 'w').write(new)
    return name

def line_pos(path, line, col):
    src = open(path, 'rb').read()
    off = 0
    for _ in range(line - 1): off = src.index(b'\n', off) + 1
    return len(src[:off + col].decode(errors='replace'))

def run(mu, tab):
    sh('rm -rf %s; cp -a %s %s' % (WORK, BASE, WORK), '/')
    p = WORK + '/theories/' + mu['file']
    s = open(p).read()
    n = s.count(mu['old'])
    if n != 1: return {'error': 'pattern occurs %d times' % n}
    open(p, 'w').write(s.replace(mu['old'], mu['new']))
    admitted = []
    tg = targets(mu)
    for it in range(400):
        rc, o = sh('make -k -j%s COQC="timeout %s coqc" %s' % (J, TO, tg), WORK)
        if rc == 0: break
        progress = False
        seen = set()
        for m in re.finditer(r'File "\./theories/(\w+\.v)", line (\d+), characters (\d+)-(\d+):\s*\n(Error|.*\nError)', o):
            f = m.group(1)
            if f in seen: continue
            seen.add(f)
            path = WORK + '/theories/' + f
            nm = admit_at(path, f, line_pos(path, int(m.group(2)), int(m.group(3))), tab)
            if nm is None: return {'error': 'not in a proof: ' + o[m.start():m.start() + 500], 'admitted': admitted}
            admitted.append(f[:-2] + '.' + nm); progress = True
        for m in re.finditer(r'theories/(\w+)\.vo\] Error (124|137)', o):
            f = m.group(1) + '.v'; path = WORK + '/theories/' + f
            if f in seen: continue
            rc, oo = sh('timeout %s coqc -time -Q theories Verif theories/%s' % (TO, f), WORK)
            cs = re.findall(r'^Chars (\d+) - (\d+) ', oo, re.M)
            pos = int(cs[-1][1]) + 2 if cs else 0
            src = open(path, 'rb').read()
            nm = admit_at(path, f, len(src[:pos].decode(errors='replace')), tab)
            if nm is None: return {'error': 'timeout outside proof in ' + f, 'admitted': admitted}
            admitted.append(f[:-2] + '.' + nm + ' (timeout)'); progress = True
        if not progress: return {'error': 'stuck: ' + o[-800:], 'admitted': admitted}
    failed = []
    for f in sorted(os.listdir(WORK + '/theories')):
        if not re.match(r'T[A-Z]\w*\.v$', f) or f == 'TestEnv.v': continue
        if os.path.getmtime(WORK + '/theories/' + f + 'o') <= os.path.getmtime(BASE + '/theories/' + f + 'o'): continue
        rc, o = sh('coqc -Q theories Verif -o %s/us/x.vo theories/%s' % (SCR, f), WORK) if False else sh('coqc -Q theories Verif theories/%s' % f, WORK)
        names = re.findall(r'^Print Assumptions ([\w\']+)\.', open(WORK + '/theories/' + f).read(), re.M)
        blocks = re.findall(r'^(Closed under the global context|Axioms:)', o, re.M)
        for a, b in zip(names, blocks):
            if b == 'Axioms:': failed.append(a)
    ex = [a.split('.')[1].replace(' (timeout)', '') for a in admitted if re.match(r'[TQ]\w+\.\w*example', a)]
    return {'failed': failed, 'examples': ex, 'first': admitted, 'built': tg}

def main():
    sync_base(); tab = using_table()
    os.makedirs(SCR + '/us', exist_ok=True)
    log = ROOT + '/seeded/LOG.jsonl'
    done = set(json.loads(l).get('id') for l in open(log)) if os.path.exists(log) else set()
    only = sys.argv[1:]
    for l in open(ROOT + '/seeded/mutations.jsonl'):
        if not l.strip(): continue
        mu = json.loads(l)
        if mu['id'] in done or (only and mu['id'] not in only): continue
        t = time.time(); r = run(mu, tab)
        rec = {'id': mu['id'], 'definition': mu['def'], 'file': mu['file'], 'edit': mu['edit'], 'claim_broken': mu['claim'],
               'theorems_failed': r.get('failed', []), 'examples_failed': r.get('examples', []),
               'broken_lemmas': r.get('first', r.get('admitted', [])), 'theorems_tightened': []}
        if r.get('built'): rec['only_built'] = r['built']
        if 'error' in r: rec['error'] = r['error']
        rec['seconds'] = int(time.time() - t)
        out = log if 'error' not in r else SCR + '/errors.jsonl'
        open(out, 'a').write(json.dumps(rec) + '\n')
        print(mu['id'], rec['theorems_failed'], r.get('error', '')[:300], flush=True)
if __name__ == '__main__': main()

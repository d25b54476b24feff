#!/usr/bin/env python3
"""Run wrong programs against the theorems.

usage: mutate.py [-n] mutants.json [id ...]

Each mutant edits one definition of the model in a scratch copy (default /tmp/scratch).  Files that
depend on it are recompiled; a lemma whose proof breaks is admitted in the scratch copy so that the
following ones can be tried.  A theorem Cnn_... fails if it breaks or if Print Assumptions finds one
of those lemmas under it.  The result is appended to seeded/LOG.jsonl (not with -n).
"""
import glob, json, os, re, shutil, subprocess, sys
root = os.path.dirname(os.path.dirname(os.path.abspath(__file__)))
scratch = os.environ.get('SCRATCH', '/tmp/scratch')
src = os.path.join(root, 'rocq')
TIMEOUT = int(os.environ.get('MUT_TIMEOUT', '300'))

def run(cmd, **kw):
    return subprocess.run(cmd, shell=True, capture_output=True, text=True, **kw)

def files():
    return [l.strip() for l in open(os.path.join(src, '_CoqProject')) if l.startswith('theories/')]

def deps():
    out = run('cd %s && coqdep -Q theories Verif %s' % (src, ' '.join(files()))).stdout
    d = {}
    for l in out.splitlines():
        m = re.match(r'(theories/\w+)\.vo.*?: (.*)', l)
        if m:
            d[m.group(1) + '.v'] = [x[:-1] for x in m.group(2).split() if re.match(r'theories/\w+\.vo$', x)]
    return d

def order(d):
    seen, out = set(), []
    def visit(f):
        if f in seen: return
        seen.add(f)
        for g in d[f]: visit(g)
        out.append(f)
    for f in files(): visit(f)
    return out

HEAD = re.compile(r'^[ \t]*(?:#\[[^\]]*\]\s*)?(Lemma|Theorem|Corollary|Example|Remark|Fact)\s+([\w\']+)', re.M)

def proofs(text):
    """(name, start of Proof, end of Qed, start) of each lemma"""
    res = []
    for m in HEAD.finditer(text):
        p = re.compile(r'\bProof\b[^.]*\.').search(text, m.end())
        q = re.compile(r'\b(Qed|Defined|Abort|Admitted)\.').search(text, p.end()) if p else None
        if q: res.append((m.group(2), p.start(), q.end(), m.start()))
    return res

def using_map(f):
    """section variables of each lemma, from the pristine file"""
    cache = '/tmp/using_%s.json' % os.path.basename(f)
    path = os.path.join(src, f)
    if os.path.exists(cache) and os.path.getmtime(cache) > os.path.getmtime(path):
        return json.load(open(cache))
    text = open(path).read()
    m = {}
    if re.search(r'^Section ', text, re.M):
        tmp = '/tmp/using_tmp'
        os.makedirs(tmp, exist_ok=True)
        t = os.path.join(tmp, os.path.basename(f))
        open(t, 'w').write('Set Suggest Proof Using.\n' + text)
        o = run('cd %s && coqc -Q theories Verif %s -o %s.vo' % (src, t, t[:-2]))
        out = re.sub(r'\s+', ' ', o.stdout + o.stderr)
        for x in re.finditer(r"The proof of ([\w']+) should start with one of the following commands: Proof using ([^.]*)\.", out):
            m[x.group(1)] = x.group(2)
    json.dump(m, open(cache, 'w'))
    return m

def compile(f):
    """returns None or the byte offset of the error"""
    path = os.path.join(scratch, f)
    p = run('cd %s && timeout %d coqc -time -Q theories Verif %s' % (scratch, TIMEOUT, f))
    if p.returncode == 0:
        return None, p.stdout, ''
    data = open(path, 'rb').read()
    if p.returncode == 124:
        ends = [int(x) for x in re.findall(r'^Chars \d+ - (\d+)', p.stdout, re.M)]
        return (ends[-1] if ends else 0) + 2, p.stdout, 'timeout'
    m = re.findall(r'File "[^"]*", line (\d+), characters (\d+)-(\d+):\s*\nError', p.stderr)
    if not m:
        return -1, p.stdout, p.stderr
    line, a, b = map(int, m[-1])
    off = sum(len(x) + 1 for x in data.split(b'\n')[:line - 1]) + a
    return off, p.stdout, p.stderr

def run_mutant(m, d, todo):
    f = 'theories/' + m['file']
    shutil.rmtree(scratch, ignore_errors=True)
    shutil.copytree(src, scratch)
    path = os.path.join(scratch, f)
    text = open(path).read()
    for old, new in m['edits']:
        assert text.count(old) == 1, (m['id'], text.count(old), old)
        text = text.replace(old, new)
    open(path, 'w').write(text)
    dirty = {f}
    broken, failed, note = [], [], ''
    for g in todo:
        if g != f and not (set(d[g]) & dirty): continue
        dirty.add(g)
        using = using_map(g)
        while True:
            off, out, err = compile(g)
            if off is None: break
            data = open(os.path.join(scratch, g), 'rb').read()
            text = data.decode()
            coff = len(data[:off].decode(errors='ignore')) if off >= 0 else -1
            hit = [x for x in proofs(text) if x[3] <= coff <= x[2]]
            if not hit or coff < hit[0][1] or off < 0:
                return None, None, 'invalid: ' + g + ' ' + err[-400:]
            name, a, b, _ = hit[0]
            if 'Admitted.' in text[a:b + 10] and name in broken:
                return None, None, 'loop at ' + name
            broken.append(name)
            u = ' using ' + using[name] if name in using else ''
            text = text[:a] + 'Proof%s. Admitted.' % u + text[b:]
            open(os.path.join(scratch, g), 'w').write(text)
        if g.endswith('Props.v'):
            text = open(os.path.join(scratch, g)).read()
            asked = re.findall(r'^Print Assumptions (\w+)\.', text, re.M)
            chunks, acc = [], ''
            for line in out.splitlines():
                if line.startswith('Chars '):
                    if '[Print~Assumptions' in line: chunks.append(acc)
                    acc = ''
                else: acc += line + '\n'
            assert len(chunks) == len(asked), (g, len(chunks), len(asked))
            for n, c in zip(asked, chunks):
                if n in broken or any(re.search(r"\b%s\b" % re.escape(x), c) for x in broken): failed.append(n)
    return failed, broken, ''

def main():
    args = sys.argv[1:]
    dry = '-n' in args
    args = [a for a in args if a != '-n']
    mutants = json.load(open(args[0]))
    log = os.path.join(root, 'seeded/LOG.jsonl')
    done = set()
    if os.path.exists(log):
        done = {json.loads(l)['id'] for l in open(log) if l.strip()}
    d = deps(); todo = order(d)
    for m in mutants:
        if args[1:] and m['id'] not in args[1:]: continue
        if not args[1:] and m['id'] in done: continue
        failed, broken, note = run_mutant(m, d, todo)
        if failed is None:
            print(m['id'], note, flush=True); continue
        print(m['id'], 'KILLED' if failed else 'SURVIVED', failed, '| broken:', broken, flush=True)
        if not dry:
            rec = {'id': m['id'], 'definition': m['definition'], 'file': 'rocq/theories/' + m['file'],
                   'edit': m['edit'], 'claim': m['claim'], 'failed': failed,
                   'lemmas_broken': broken, 'tightened': m.get('tightened', [])}
            open(log, 'a').write(json.dumps(rec) + '\n')

main()

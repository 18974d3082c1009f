#!/usr/bin/env python3
"""Mutation testing of the theorems, outside of the repository.

mutate.py BASE MUTANTS OUT [id ...]
BASE is a built copy of rocq/. Each mutant is {id, file, old, new, definition, edit, claim, expect}: in a
scratch copy the text `old` of `file` (once) is replaced by `new` and everything after it is recompiled. A proof
which fails is replaced by Admitted there, so that each theorem can be judged: it fails when it uses an
admitted lemma. One result per line goes to OUT."""
import json, os, re, shutil, subprocess, sys, tempfile
from multiprocessing.pool import ThreadPool

STMT = re.compile(r'^[ \t]*(?:Local |Global |#\[[^\]]*\] *)?(Theorem|Lemma|Example|Corollary|Fact|Remark|Goal|Definition|Fixpoint|Inductive|Record|Ltac|Notation|Instance|Section|Tactic)\b *([\w\']*)', re.M)

def run(cmd, cwd, timeout):
    try:
        p = subprocess.run(cmd, cwd=cwd, stdout=subprocess.PIPE, stderr=subprocess.STDOUT, timeout=timeout)
        return p.returncode, p.stdout.decode(errors='replace')
    except subprocess.TimeoutExpired as e:
        return 124, (e.stdout or b'').decode(errors='replace')

def deps(base):
    code, out = run(['coqdep', '-f', '_CoqProject'], base, 60)
    d = {}
    for line in out.split('\n'):
        m = re.match(r'(theories/\w+)\.vo[^:]*:(.*)', line)
        if m:
            d[m.group(1) + '.v'] = [x[:-1] for x in m.group(2).split() if x.endswith('.vo') and x.startswith('theories/')]
    return d

def order(d):
    seen, res = set(), []
    def go(f):
        if f in seen: return
        seen.add(f)
        for g in d.get(f, []): go(g)
        res.append(f)
    for f in d: go(f)
    return res

def byte_line(text, pos):
    return text.encode()[:pos].decode(errors='replace').count('\n') + 1

def admit(text, line):
    """Admit the proof of the statement around the line; gives its name."""
    starts = [0]
    for i, c in enumerate(text):
        if c == '\n': starts.append(i + 1)
    pos = starts[line] - 1 if line < len(starts) else len(text)
    last = None
    for m in STMT.finditer(text):
        if m.start() > pos: break
        last = m
    if not last: return None, None, text
    kind, name = last.group(1), last.group(2)
    rest = text[last.start():]
    p = re.search(r'\bProof\b', rest)
    e = re.search(r'\b(Qed|Defined|Abort)\s*\.', rest)
    nxt = STMT.search(rest, 1)
    if kind not in ('Theorem', 'Lemma', 'Example', 'Corollary', 'Fact', 'Remark', 'Goal', 'Definition') or not p or not e or p.start() > e.start():
        return None, kind + ' ' + name, text
    if kind == 'Goal':
        return 'Goal', 'Goal', text[:last.start()] + text[last.start() + e.end():]
    # an assertion in the statement itself can not be admitted
    if starts[line - 1] < last.start() + p.start() - 200000: pass
    return name, kind + ' ' + name, text[:last.start() + p.start()] + 'Admitted.' + text[last.start() + e.end():]

def failing(text, f, work):
    """The statements whose proofs fail, found in one pass: the proofs are replayed with errors skipped."""
    text = re.sub(r'\b(Qed|Defined)\s*\.', r'\1. Admitted.', text)
    try:
        p = subprocess.run(['coqtop', '-q', '-Q', 'theories', 'Verif', '-topfile', f], cwd=work, timeout=1500,
                           input=('Set Default Timeout 60.\n' + text + '\nQuit.\n').encode(), stdout=subprocess.PIPE, stderr=subprocess.STDOUT)
        out = p.stdout
    except subprocess.TimeoutExpired as e:
        out = e.stdout or b''
    return set(re.findall(r'\(in proof ([\w\']+)\)', out.decode(errors='replace')))

def mutant(base, m, dep, ordr):
    work = tempfile.mkdtemp(prefix='mut', dir='/tmp')
    try:
        subprocess.run(['cp', '-a', base + '/.', work], check=True)
        path = os.path.join(work, 'theories', m['file'])
        text = open(path).read()
        if text.count(m['old']) != 1:
            return {'id': m['id'], 'error': 'old text found %d times' % text.count(m['old'])}
        open(path, 'w').write(text.replace(m['old'], m['new']))
        changed, failed, broken, files = {'theories/' + m['file']}, [], [], []
        for f in ordr:
            if f.startswith('theories/Artifacts') and f != 'theories/Artifacts.v': continue
            if f not in changed and not any(g in changed for g in dep[f]): continue
            if any(g in broken for g in dep[f]):
                broken.append(f); continue
            changed.add(f)
            fp = os.path.join(work, f)
            for attempt in range(60):
                code, out = run(['coqc', '-Q', 'theories', 'Verif', '-time', f], work, m.get('timeout', 300))
                if code == 0: break
                text = open(fp).read()
                if attempt == 0:
                    for n in failing(text, f, work):
                        m2 = re.search(r'^[ \t]*(?:Theorem|Lemma|Example|Corollary|Fact|Remark) %s(?![\w\'])' % re.escape(n), text, re.M)
                        if m2:
                            name, what, text = admit(text, text[:m2.end()].count('\n') + 1)
                            failed.append(os.path.basename(f)[:-2] + '.' + n)
                    open(fp, 'w').write(text)
                    continue
                err = re.findall(r'^File "\./?([^"]*)", line (\d+), characters', out, re.M)
                e = re.search(r'Error', out)
                if err and e: line = int(err[-1][1])
                else:
                    ch = re.findall(r'^Chars (\d+) - (\d+)', out, re.M)
                    line = byte_line(text, int(ch[-1][1]) + 2) if ch else 1
                name, what, text2 = admit(text, line)
                if name is None:
                    broken.append(f); files.append([f, what, out[-300:]]); break
                if name != 'Goal': failed.append(os.path.basename(f)[:-2] + '.' + name)
                else: failed.append(os.path.basename(f)[:-2] + '.Goal')
                open(fp, 'w').write(text2)
            else:
                broken.append(f)
        # which theorems still hold
        theorems, chk, mods = [], [], []
        for f in ordr:
            if os.path.basename(f).startswith('Prop'):
                names = re.findall(r'^Theorem (C\d+\w*)', open(os.path.join(base, f)).read(), re.M)
                theorems += [(n, f) for n in names]
                if f not in broken: mods.append(os.path.basename(f)[:-2])
        chk.append('From Verif Require Import %s.' % ' '.join(mods))
        for n, f in theorems:
            if f not in broken:
                chk.append('Goal True. idtac "@@%s". Abort.\nPrint Assumptions %s.' % (n, n))
        open(os.path.join(work, 'Chk.v'), 'w').write('\n'.join(chk) + '\n')
        code, out = run(['coqc', '-Q', 'theories', 'Verif', 'Chk.v'], work, 300)
        fails = [n for n, f in theorems if f in broken]
        for part in out.split('@@')[1:]:
            n = part.split('\n')[0].strip()
            if 'Closed under' not in part: fails.append(n)
        return {'id': m['id'], 'failed': sorted(fails), 'lemmas': failed, 'broken': files, 'chk': code if code == 0 else out[-600:]}
    finally:
        shutil.rmtree(work, ignore_errors=True)

def main():
    base, mutants, out = sys.argv[1:4]
    only = set(sys.argv[4:])
    dep = deps(base); ordr = order(dep)
    done = set()
    if os.path.exists(out):
        done = {json.loads(l)['id'] for l in open(out)}
    todo = [m for m in json.load(open(mutants)) if m['id'] not in done and (not only or m['id'] in only)]
    with ThreadPool(int(os.environ.get("JOBS", "4"))) as pool:
        for m, r in pool.imap_unordered(lambda m: (m, mutant(base, m, dep, ordr)), todo, chunksize=1):
            open(out, 'a').write(json.dumps(r) + '\n')
            print(m['id'], r.get('error') or (len(r['failed']), r['broken']), flush=True)
main()

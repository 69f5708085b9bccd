#!/usr/bin/env python3
"""Apply seeded bugs to a scratch copy of the model and report which theorem fails.

usage: mutate.py SPEC.json [--log]
SPEC is a list of {file, definition, edit, old, new, claim}; `old` must occur exactly once
in theories/<file> (or give "nth" for the 0-based occurrence). With --log one JSON line per
attempt is appended to seeded/LOG.jsonl.
"""
import json, os, re, shutil, subprocess, sys

SRC = '/verif/rocq'
DST = f'/tmp/mut{os.getpid()}'

def sync():
    os.makedirs(DST, exist_ok=True)
    subprocess.run(['rsync', '-a', '--delete', SRC + '/', DST + '/'], check=True) \
        if shutil.which('rsync') else subprocess.run(
            f'rm -rf {DST} && cp -a {SRC} {DST}', shell=True, check=True)

def lemma_at(path, line):
    name = None
    for i, l in enumerate(open(path), 1):
        m = re.match(r'\s*(?:Theorem|Lemma|Corollary|Example|Definition|Fixpoint)\s+([\w\']+)', l)
        if m:
            name = m.group(1)
        if i >= line:
            break
    return name

def main():
    global SRC
    spec = json.load(open(sys.argv[1]))
    snap = f'/tmp/mutsrc{os.getpid()}'   # work from a snapshot of the tree
    subprocess.run(f'rm -rf {snap} && cp -a {SRC} {snap}', shell=True, check=True)
    SRC = snap
    log = '--log' in sys.argv
    sync()
    subprocess.run('coq_makefile -f _CoqProject -o Makefile >/dev/null', shell=True, cwd=DST)
    for m in spec:
        path = f"{DST}/theories/{m['file']}"
        orig = open(path).read()
        n = orig.count(m['old'])
        k = m.get('nth')
        if k is None and n != 1:
            print('BAD', m['definition'], 'occurrences', n); continue
        if k is None:
            new = orig.replace(m['old'], m['new'])
        else:
            parts = orig.split(m['old'])
            new = m['old'].join(parts[:k + 1]) + m['new'] + m['old'].join(parts[k + 1:])
        st = os.stat(path)
        open(path, 'w').write(new)
        r = subprocess.run('make -k -j4 2>&1', shell=True, cwd=DST, capture_output=True, text=True,
                           timeout=3600)
        failed = []
        for mm in re.finditer(r'File "\./(theories/[\w/]+\.v)", line (\d+).*?\n(?!Warning)', r.stdout):
            nm = lemma_at(f"{DST}/{mm.group(1)}", int(mm.group(2)))
            if f"{mm.group(1)}:{nm}" not in failed:
                failed.append(f"{mm.group(1)[9:]}:{nm}")
        if not failed and r.returncode != 0:
            failed = ['(build error) ' + r.stdout[-300:]]
        print(('KILLED ' if failed else 'SURVIVED '), m['definition'], '|', m['edit'], '->', failed)
        if log:
            with open('/verif/seeded/LOG.jsonl', 'a') as f:
                f.write(json.dumps({'definition': m['file'] + ':' + m['definition'], 'edit': m['edit'],
                                    'claim': m['claim'], 'failed': failed,
                                    'tightened': m.get('tightened', [])}) + '\n')
        # restore this file and every compiled file
        subprocess.run(['rm', '-rf', DST]); sync()
    subprocess.run(['rm', '-rf', DST, SRC])

main()

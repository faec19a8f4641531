#!/usr/bin/env python3
"""Print the Go files of a repository as Coq strings, line by line.

usage: gotext.py REPO > rocq/theories/GoText.v

Files of tests and of internal packages are left out.  The order of the files is
that of go2coq.py; it only decides the order of the functions in the result.
"""
import os, sys

REPO = sys.argv[1]
files = []
for root, dirs, fs in sorted(os.walk(REPO)):
    for f in sorted(fs):
        p = os.path.relpath(os.path.join(root, f), REPO)
        if f.endswith('.go') and not f.endswith('_test.go') and 'internal' not in p:
            files.append(p)
files.sort(key=lambda p: p.startswith('examples'))

print('(* Generated by tools/gotext.py: the Go files, byte for byte; do not edit. *)')
print('From Verif Require Import GoBase.')
print('Local Open Scope string_scope.\nLocal Open Scope list_scope.\n')
print('(* every line ends with a newline *)')
print('Definition lines (l : list string) : string :=')
print('  fold_right (fun a b => (a ++ String (Ascii.ascii_of_N 10) b)%string) EmptyString l.\n')
names = []
for p in files:
    s = open(os.path.join(REPO, p), encoding='ascii', newline='').read()
    assert s.endswith('\n') and '\r' not in s
    n = 'text_' + p[:-3].replace('/', '_').replace('.', '_').replace('-', '_')
    names.append((p, n))
    print('Definition %s : string := lines [' % n)
    print(';\n'.join('"%s"' % l.replace('"', '""') for l in s[:-1].split('\n')))
    print('].\n')
print('Definition repo_text : list (string * string) :=\n  [')
print(';\n'.join('    ("%s", %s)' % x for x in names))
print('  ].')

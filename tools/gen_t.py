#!/usr/bin/env python3
"""Generate theories/T<X>.v (property theorems, each closed by `exact`) from
theories/Q<X>.v, which holds the lemmas `Cnn_name_lem` with their proofs.
Comments directly before a lemma and blocks `(*EXAMPLE` ... `*)` are copied."""
import re, sys, os
root = os.path.join(os.path.dirname(__file__), '..', 'rocq', 'theories')
for name in sys.argv[1:]:
    src = open(os.path.join(root, 'Q%s.v' % name)).read()
    head = re.search(r'^From Verif Require Import ([^.]*)\.', src, re.M).group(1)
    out = ['(** Property theorems; the proofs are in Q%s.v. *)' % name,
           'From Verif Require Import %s Q%s.' % (head, name)]
    for l in re.findall(r'^\(\*T (.*) \*\)$', src, re.M):
        out.append(l)
    out.append('')
    pat = re.compile(r'(\(\*\*(?:(?!\*\)).)*\*\)\n)?Lemma (C\d\d_\w+)_lem\s*:(.*?)\nProof\..*?\bQed\.|(\(\*EXAMPLE\n)(.*?)\nEXAMPLE\*\)|(\(\*\*\* (?:(?!\*\)).)*\*\))', re.S)
    for m in pat.finditer(src):
        if m.group(6):
            out.append(m.group(6)); out.append('')
        elif m.group(4):
            out.append(m.group(5)); out.append('')
        else:
            if m.group(1): out.append(m.group(1).rstrip())
            out.append('Theorem %s :%s' % (m.group(2), m.group(3)))
            out.append('Proof. exact %s_lem. Qed.' % m.group(2))
            out.append('Print Assumptions %s.' % m.group(2)); out.append('')
    open(os.path.join(root, 'T%s.v' % name), 'w').write('\n'.join(out))

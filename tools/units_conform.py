#!/usr/bin/env python3
"""Reads the unit-test vectors of /repo/blocking_cache/units/tests as text (ast,
constants only) and writes rocq/theories/UnitsConformData.v."""
import ast
R='/repo/blocking_cache/units/tests/'
def tables(fn):
    """(function name, first line, last line, rows as dicts, calls of mk_mem_msg, unit)"""
    for f in ast.parse(open(R+fn).read()).body:
        if not isinstance(f,ast.FunctionDef): continue
        for n in (n for s in f.body for n in ast.walk(s)):
            if isinstance(n,ast.List) and n.elts and isinstance(n.elts[0],ast.Tuple):
                rows=ast.literal_eval(n); head=rows[0]
                yield f.name,f.lineno,f.end_lineno,[dict(zip(head,r)) for r in rows[1:]]
o=['(** Generated by tools/units_conform.py from the unit-test vectors of the repository',
   '    (blocking_cache/units/tests).  Do not edit. *)',
   'From Coq Require Import NArith List.','Import ListNotations.','Open Scope N_scope.','']
b=lambda x:'true' if x else 'false'
for fn in ['arithmetics_tests.py','muxes_tests.py']:
    for name,l1,l2,rows in tables(fn):
        k=list(rows[0])
        cols={'replicator':['amo','len_','in_','out*'],'WriteBitEnGen':['cmd','dty_mask','offset','len_','out*'],
              'clw128':['en','amo','len_','offset','in_','out*']}
        c=[v for q,v in cols.items() if q in name][0]
        assert set(c)==set(k),(c,k)
        ty={'amo':'bool','en':'bool'}
        o.append(f'(** blocking_cache/units/tests/{fn} {l1}-{l2}; columns {", ".join(c)} *)')
        o.append(f'Definition v_{name} : list ({" * ".join(ty.get(x,"N") for x in c)}) :=\n  [ '+
          ';\n    '.join('('+', '.join(b(r[x]) if x in ty else str(r[x]) for x in c)+')' for r in rows)+' ].')
open('/verif/rocq/theories/UnitsConformData.v','w').write('\n'.join(o)+'\n')

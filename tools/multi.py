#!/usr/bin/env python3
"""Reads the multi-cache tests of /repo as text (ast, constant folding only) and
writes rocq/theories/MultiData.v."""
import ast
T={'rd':0,'wr':1,'in':2,'ad':3,'an':4,'or':5,'sw':6,'mi':7,'mu':8,'mx':9,'xu':10,'xo':11,'inv':14,'fl':15}
t=ast.parse(open('/repo/blocking_cache/test/MultiCacheTestCases.py').read())
def ev(e):
    if isinstance(e,ast.Constant): return e.value
    if isinstance(e,(ast.List,ast.Tuple)): return [ev(x) for x in e.elts]
    if isinstance(e,ast.Call): return (e.func.id,[ev(a) for a in e.args])
    raise ValueError(ast.dump(e))
o=['(** Generated by tools/multi.py from blocking_cache/test/MultiCacheTestCases.py.  Do not edit. *)',
'From Coq Require Import NArith List.','From Verif Require Import Params Msg BulkSpec.','Import ListNotations.','Open Scope N_scope.','',
'(** number of caches, widths, size and associativity of each cache, messages and expected responses in the order of the test *)',
'Record mtest := mkMT { mt_n : nat; mt_p : params; mt_sizes : list (N * N); mt_msgs : list (msg * cresp) }.','Definition mt_z (t : mtest) (i : nat) : N * N := nth i (mt_sizes t) (0, 0).','']
names=[]
for f in t.body:
    if not isinstance(f,ast.FunctionDef): continue
    env={}
    for s in f.body:
        if isinstance(s,ast.Assign): env[s.targets[0].id]=ev(s.value)
        if isinstance(s,ast.Return) and isinstance(s.value,ast.List):
            v=ev(s.value)
            o.append(f'(** MultiCacheTestCases.py {f.lineno}-{f.end_lineno} *)\nDefinition {f.name} : list (N * N) :=\n  ['+'; '.join(f'({v[i]}, {v[i+1]})' for i in range(0,len(v),2))+'].')
    if 'msgs' not in env: continue
    a,c,m=env['associativities'],env['cache_sizes'],env['msgs']
    assert len(a)==len(c)
    rows=[]
    for i in range(0,len(m),2):
        _,q=m[i]; _,r=m[i+1]
        rows.append(f'(({q[0]}%nat, {q[1]}, mkCReq {T[q[2]]} {q[3]} {q[4]} {q[5]} {q[6]}), mkCResp {T[r[0]]} {r[1]} {r[2]} {r[3]} {r[4]})')
    o.append(f'(** MultiCacheTestCases.py {f.lineno}-{f.end_lineno} (line size and widths: test/sim_utils.py) *)')
    o.append(f'Definition {f.name} : mtest := mkMT {len(a)} (mkParams {c[0]} {a[0]} 128 32 8 32) ['+'; '.join(f'({x}, {y})' for x,y in zip(c,a))+']\n  [ '+';\n    '.join(rows)+' ].')
    names.append(f.name)
o.append('Definition multi_tests : list mtest := ['+'; '.join(names)+'].')
open('/verif/rocq/theories/MultiData.v','w').write('\n'.join(o)+'\n')
print(names)

#!/usr/bin/env python3
"""Reads the directed test tables of /repo as text (ast, constant folding only)
and writes rocq/theories/ConformData.v."""
import ast
T={'rd':0,'wr':1,'in':2,'ad':3,'an':4,'or':5,'sw':6,'mi':7,'mu':8,'mx':9,'xu':10,'xo':11,'inv':14,'fl':15}
BO={ast.Add:lambda a,b:a+b,ast.Sub:lambda a,b:a-b,ast.Mult:lambda a,b:a*b,ast.LShift:lambda a,b:a<<b,ast.FloorDiv:lambda a,b:a//b}
def ev(e,env):
    if isinstance(e,ast.Constant): return e.value
    if isinstance(e,ast.Name): return env[e.id]
    if isinstance(e,ast.BinOp): return BO[type(e.op)](ev(e.left,env),ev(e.right,env))
    if isinstance(e,(ast.Tuple,ast.List)): return [ev(x,env) for x in e.elts]
    if isinstance(e,ast.UnaryOp) and isinstance(e.op,ast.USub): return -ev(e.operand,env)
    raise ValueError(ast.dump(e))
class Ret(Exception): pass
def run(body,env):
    for s in body:
        if isinstance(s,ast.Assign): env[s.targets[0].id]=ev(s.value,env)
        elif isinstance(s,ast.For):
            for i in range(*[ev(a,env) for a in s.iter.args]):
                env[s.target.id]=i; run(s.body,env)
        elif isinstance(s,ast.Expr) and isinstance(s.value,ast.Call):
            env[s.value.func.value.id].append(ev(s.value.args[0],env))
        elif isinstance(s,ast.Expr): pass
        elif isinstance(s,ast.Return):
            c=s.value
            a=[ev(x,env) for x in c.args]; k={x.arg:ev(x.value,env) for x in c.keywords}
            env['ret']=(a,k); raise Ret
        else: raise ValueError(ast.dump(s))
R='/repo/blocking_cache/test/'
out=[]; mems={}
for fn in ['GenericTestCases','AmoTests','InvFlushTests','OtherCiferTests']:
    t=ast.parse(open(R+fn+'.py').read())
    g={}
    used=[]
    for s in t.body:
        if isinstance(s,ast.ClassDef):
            for m in s.body:
                for d in m.decorator_list:
                    for row in d.args[1].elts: used.append(row.elts[1].id)
    for s in t.body:
        if isinstance(s,ast.Assign): g[s.targets[0].id]=ev(s.value,g); mems[(fn,s.targets[0].id)]=g[s.targets[0].id]
        if isinstance(s,ast.FunctionDef):
            env=dict(g)
            try: run(s.body,env)
            except Ret: pass
            a,k=env['ret']; msg=a[0]; memname=[n for n in g if g[n] is a[1]][0]
            assoc,clw,dbw=k['associativity'],k['bitwidth_mem_data'],k['bitwidth_cache_data']
            size=k.get('cache_size') or clw*2//8*assoc
            out.append((fn,s.name,s.lineno,s.end_lineno,memname,assoc,clw,dbw,size,msg,s.name in used))
o=['(** Generated by tools/conform.py from the directed test tables of the repository','    (blocking_cache/test/*.py).  Do not edit. *)',
'From Coq Require Import NArith List.','From Verif Require Import Params Msg.','Import ListNotations.','Open Scope N_scope.','',
'(** name of the test, parameters, initial memory, (request, expected response) list *)',
'Record dtest := mkT { t_p : params; t_mem : list (N * N); t_msgs : list (creq * cresp) }.','']
for (fn,n),v in mems.items():
    o.append(f'(** {fn}.py: {n} *)\nDefinition m_{fn}_{n} : list (N * N) :=\n  ['+'; '.join(f'({v[i]}, {v[i+1]})' for i in range(0,len(v),2))+'].')
names=[]
for (fn,n,l1,l2,mn,assoc,clw,dbw,size,msg,used) in out:
    def rq(m): return f'mkCReq {T[m[0]]} {m[1]} {m[2]} {m[3]} {m[4]%2**dbw}'
    def rs(m): return f'mkCResp {T[m[0]]} {m[1]} {m[2]} {m[3]} {m[4]%2**dbw}'
    o.append(f'(** blocking_cache/test/{fn}.py {l1}-{l2}: {n}{"" if used else " (not run by the repository)"} *)')
    o.append(f'Definition {fn}_{n} : dtest := mkT (mkParams {size} {assoc} {clw} 32 8 {dbw}) m_{fn}_{mn}\n  [ '+
      ';\n    '.join(f'({rq(msg[i])}, {rs(msg[i+1])})' for i in range(0,len(msg),2))+' ].')
    names.append((fn,n,used))
for fn in ['GenericTestCases','AmoTests','InvFlushTests','OtherCiferTests']:
    o.append(f'Definition tests_{fn} : list dtest :=\n  ['+'; '.join(f'{a}_{b}' for a,b,u in names if a==fn and u)+'].')
o.append('Definition tests_unused : list dtest :=\n  ['+'; '.join(f'{a}_{b}' for a,b,u in names if not u)+'].')
open('/verif/rocq/theories/ConformData.v','w').write('\n'.join(o)+'\n')
print(len(names),[n for n in names if not n[2]])

import os,re,sys
root='/repo/tests/test_cases'
dirs="assignment statement/mostra operator statement/se statement/enquanto statement/escolha function statement/retorna statement/loop_ctl comment call declaration expression converte vec rt_errors math registo set methods nulo usa annotations uniao iguala".split()
def q(s): return '"'+s.replace('"','""')+'"'
def src(t):
    # text with possibly missing final newline
    return 'utf '+q(t)
files={}
for base in ['/repo/std','/repo/tests/test_data','/repo/tests/test_cases']:
    for r,_,fs in os.walk(base):
        for f in fs:
            if f.endswith('.ama'):
                files[os.path.join(r,f)]=open(os.path.join(r,f),encoding='utf8').read()
cases=[]
for d in dirs:
    for f in sorted(os.listdir(os.path.join(root,d))):
        p=os.path.join(root,d,f)
        if not os.path.isfile(p): continue
        t=open(p,encoding='utf8').read()
        m=None
        for line in t.splitlines():
            if '#[output]' in line:
                m=line.split(':',1)[1].strip(); break
        cases.append((p,t,m))
def closure(p):
    need=set(); todo=[files.get(p) or '']
    while todo:
        t=todo.pop()
        for m in re.finditer(r'''usa\s+["']([^"']+)["']''',t):
            w=m.group(1)
            if not w.endswith('.ama'): w+='.ama'
            for c in ('/repo/'+w if not w.startswith('/') else w,'/repo/std/'+w):
                if c in files and c not in need:
                    need.add(c); todo.append(files[c])
    return need

SKIP={'math/math_builtins.ama'}
out=["(** GENERATED by /verif/tools/gentests.py: the project's own end-to-end tests",
"    (/repo/tests/test_cases, the suites listed in /repo/tests/test.py), run on the",
"    model.  Each compares what the whole model -- reader, parser, analyser,",
"    transformation, generator, loader, VM -- does with a source text to the output",
"    recorded in it.  These are tests of the model, not proofs about it.  For an",
"    expected error the model's error has to come after the same output; its message",
"    is not modelled.  math/math_builtins.ama is left out (it uses libm). *)",
"From Verif Require Import Base Ex_Front.","From Coq Require Import String.","Local Open Scope string_scope.","",
"Definition same_output (o : seen) (expected : text) : Prop := match o with Prints t => flat t = expected | _ => False end.",
"Definition same_error (o : seen) (before : text) : Prop :=",
"  match o with Rejected _ _ => before = [] | Stops t _ => flat t = before | _ => False end.",
"Definition same_stop (line : N) (o : seen) (before : text) : Prop :=",
"  match o with Stops t ls => last ls 0%N = line /\\ flat t = before | _ => False end.",""]
n=0
for i,(p,t,m) in enumerate(cases):
    rel=os.path.relpath(p,root)
    if rel in SKIP: continue
    need=closure(p)-{p}
    fl='; '.join(f'(txt {q(x)}, {src(files[x])})' for x in sorted(need|{p}))
    name=re.sub(r'[^a-zA-Z0-9]','_',rel[:-4])
    ln=re.search(r'Erro na linha (\d+)',m)
    if ln:
        goal=f'same_stop {ln.group(1)}'; exp=m[:m.index('Erro')].strip()
    elif 'Erro' in m:
        goal='same_error'; exp=m[:m.index('Erro')].strip()
    else:
        goal='same_output'; exp=m
    out.append(f'Example t_{name} : {goal} (see [{fl}] (txt {q(p)}) [] 4000) ({src(exp)}).')
    out.append('Proof. vm_compute. repeat split. Qed.')
    n+=1
open(sys.argv[1],'w').write('\n'.join(out)+'\n')
print(n)

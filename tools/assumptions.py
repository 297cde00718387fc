#!/usr/bin/env python3
"""Writes ASSUMPTIONS.md: what Print Assumptions says of each theorem of the
manifest. Run in a tree where rocq/ was built."""
import json,os,re,subprocess,tempfile
root=os.path.dirname(os.path.dirname(os.path.abspath(__file__)))
th=os.path.join(root,'rocq','theories')
names=[t for c in json.load(open(os.path.join(root,'MANIFEST.json')))['claims'] for t in c['theorems']]
where={}
for f in sorted(os.listdir(th)):
    if f.startswith('Props_') and f.endswith('.v'):
        for m in re.finditer(r'^\s*(?:Theorem|Lemma|Example|Corollary)\s+(\w+)',open(os.path.join(th,f)).read(),re.M): where.setdefault(m.group(1),f[:-2])
mods=sorted(set(where[n] for n in names))
res={}
for mod in mods:
    l=[n for n in names if where[n]==mod]
    src='From Verif Require %s.\n'%mod+''.join('Goal True. idtac "@@ %s". Abort.\nPrint Assumptions %s.%s.\n'%(n,mod,n) for n in l)
    with tempfile.TemporaryDirectory() as d:
        p=os.path.join(d,'pa.v'); open(p,'w').write(src)
        out=subprocess.run(['coqc','-Q',th,'Verif',p],stdout=subprocess.PIPE,stderr=subprocess.STDOUT).stdout.decode()
    for part in out.split('@@ ')[1:]:
        n,_,rest=part.partition('\n')
        if 'Closed under the global context' in rest: res[n]=()
        else:
            rest=rest.split('Axioms:')[-1]
            res[n]=tuple(sorted(set(re.findall(r'^([A-Za-z_][\w.\']*)\s*:',rest,re.M)) | set(re.findall(r'^([A-Za-z_][\w.\']*)\s*$',rest,re.M))))
groups={}
for n in names: groups.setdefault(res.get(n,('?',)),[]).append(n)
with open(os.path.join(root,'ASSUMPTIONS.md'),'w') as f:
    f.write('# Print Assumptions of every theorem of the manifest\n\nWritten by tools/assumptions.py. All the axioms below belong to the standard\nlibrary of Coq (Reals, Logic).\n')
    for k in sorted(groups,key=len):
        f.write('\n## %s\n\n'%('Closed under the global context (no axiom)' if not k else ', '.join('`%s`'%a for a in k)))
        f.write('\n'.join('* '+n for n in groups[k])+'\n')
print({k:len(v) for k,v in groups.items()})

"""Writes ASSUMPTIONS.md: what Print Assumptions lists for every theorem of the manifest.
Needs a finished build of rocq/."""
import json,re,subprocess,glob,os
R=os.path.join(os.path.dirname(os.path.dirname(os.path.abspath(__file__))),'rocq')
where={}
for f in glob.glob(R+'/theories/*.v'):
    for m in re.finditer(r'^(?:Theorem|Lemma|Corollary)\s+([\w\']+)',open(f).read(),re.M):
        where.setdefault(m.group(1),os.path.basename(f)[:-2])
ths=[]
for c in json.load(open(R+'/../MANIFEST.json'))['claims']:
    for t in c['theorems']:
        if t not in ths: ths.append(t)
mods=sorted({where[t] for t in ths})
src='From Verif Require '+' '.join(mods)+'.\n'
for t in ths:
    src+=f'Goal True. idtac "@@ {t}". Abort.\nPrint Assumptions {where[t]}.{t}.\n'
open('/tmp/assum.v','w').write(src)
out=subprocess.run(['coqtop','-quiet','-Q','theories','Verif','-l','/tmp/assum.v','-batch'],cwd=R,capture_output=True,text=True).stdout
res={}
for blk in out.split('@@ ')[1:]:
    name,rest=blk.split('\n',1)
    if 'Closed under the global context' in rest: res[name]=()
    else: res[name]=tuple(sorted(set(re.findall(r'^([A-Za-z_][\w\.]*)\s*$|^([A-Za-z_][\w\.]*) :',rest,re.M) and [a or b for a,b in re.findall(r'^([A-Za-z_][\w\.]*)\s*$|^([A-Za-z_][\w\.]*) :',rest,re.M)])-{'Axioms'}))
groups={}
for t in ths: groups.setdefault(res.get(t,('?',)),[]).append(t)
o='# What `Print Assumptions` lists\n\nGenerated by tools/assumptions.py from the finished build; one section per set of axioms.\n'
for g in sorted(groups,key=len):
    o+='\n## '+(', '.join(f'`{a}`' for a in g) if g else 'Closed under the global context')+f' ({len(groups[g])} theorems)\n\n'+', '.join(groups[g])+'\n'
open(R+'/../ASSUMPTIONS.md','w').write(o)

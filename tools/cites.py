# lists model definitions whose comment gives no line in /repo
import re,glob,sys
tot=0;bad=[]
for f in sorted(glob.glob('/verif/rocq/theories/*_Model.v')):
    s=open(f).read()
    n=f.split('/')[-1][:-8]
    if n=='Town': continue
    for mm in re.finditer(r'^\s*(?:#\[[^\]]*\]\s*)?(Definition|Fixpoint|Record|Inductive|Function|Equations|CoFixpoint)\s+(\w+)',s,re.M):
        tot+=1
        pre=s[:mm.start()].rstrip()
        com=''
        if pre.endswith('*)'):
            # comment block
            depth=0;i=len(pre)
            j=pre.rfind('(*'); com=pre[j:]
        # trailing comment on same sentence
        post=s[mm.start():mm.start()+3000].split('\n\n')[0]
        c2=re.match(r'[^\n]*\(\*([^\n]*)\*\)',post)
        if c2: com+=c2.group(1)
        if not re.search(r'(\.rs|[a-z]):\s?\d+|\d+[-–]\d+|lines? \d+|rs \d+',com): bad.append((n,mm.group(2),s[:mm.start()].count('\n')+1,com[:80].replace('\n',' ')))
print(tot,len(bad))
for b in bad: print(*b)

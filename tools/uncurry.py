"""Run in rocq/theories: uncurry.py File.v rewrites 'Theorem name a b : P' as 'Theorem name : forall a b, P'."""
import re,sys
p=sys.argv[1]; s=open(p).read()
def f(m):
    name,args,stmt,proof=m.groups()
    proof=proof.strip()
    e=re.match(r"exact \((\w+) "+re.escape(args)+r"\)\.$",proof)
    if e: proof="exact %s."%e.group(1)
    else: proof="intros %s. %s"%(args,proof)
    return "Theorem %s : forall %s, %s.\nProof. %s Qed."%(name,args,stmt.strip(),proof)
s=re.sub(r"Theorem (\w+) ((?:\w+'* )*\w+'*) : (.*?)\.\nProof\.(.*?)Qed\.",f,s,flags=re.S)
open(p,'w').write(s)

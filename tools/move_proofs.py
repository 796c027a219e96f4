"""Run in rocq/theories: move_proofs.py Base moves the theorem proofs of BaseProps.v to the end of
BaseProofs.v (or of the file given as second argument) as <name>_lemma and adds the missing Print Assumptions lines."""
import re,sys
base=sys.argv[1]; target=(sys.argv[2] if len(sys.argv)>2 else base+"Proofs")+".v"
s=open(base+'Props.v').read(); p=open(target).read()
scopes=re.findall(r"^Local Open Scope \w+\.$",s,flags=re.M)
moved=""
def repl(m):
    global moved
    name,stmt,proof=m.group(1),m.group(2),m.group(3)
    if proof.strip().startswith('exact') : return m.group(0)
    moved+="\nLemma %s_lemma : %s.\nProof.%sQed.\n"%(name,stmt.strip(),proof)
    return "Theorem %s : %s.\nProof. exact %s_lemma. Qed."%(name,stmt.strip(),name)
s=re.sub(r"Theorem (\w+)\s*:\s*(.*?)\.\nProof\.(.*?)Qed\.",repl,s,flags=re.S)
def pa(m):
    return m.group(0) if m.group(3) else "%s\nPrint Assumptions %s."%(m.group(1),m.group(2))
s=re.sub(r"((?:Theorem) (\w+)\s*:.*?Qed\.)(\nPrint Assumptions \w+\.)?",pa,s,flags=re.S)
names=re.findall(r'^Lemma (\w+)_lemma :',moved,flags=re.M)
for n in names: moved=re.sub(r'\b%s\b'%n,n+'_lemma',moved)
if moved: p+="\n"+"\n".join(scopes)+moved
open(base+'Props.v','w').write(s); open(target,'w').write(p)

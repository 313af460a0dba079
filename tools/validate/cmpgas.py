# Compares SpecGas.gas (argument gas) or the model of monoasm (argument model) with the GNU assembler.
# First the instructions and operands gen.rb of the repository generates, then other immediates, then every other instruction.
import subprocess, re, random, sys
R={8:"rax rcx rdx rbx rsp rbp rsi rdi r8 r9 r10 r11 r12 r13 r14 r15".split(),4:"eax ecx edx ebx esp ebp esi edi r8d r9d r10d r11d r12d r13d r14d r15d".split(),2:"ax cx dx bx sp bp si di r8w r9w r10w r11w r12w r13w r14w r15w".split(),1:"al cl dl bl spl bpl sil dil r8b r9b r10b r11b r12b r13b r14b r15b".split()}
C="o no b c nae ae nc eq e z ne nz be na a nbe s ns p pe np po lt nge ge nl le ng gt nle".split()
def ind(more=False):
    o=[]
    for r in R[8]+["rip"]:
        for d in ["","+ 16","+ 512"]+(["+ 0","- 1","- 128","- 129","+ 127","+ 128","+ 2147483647","- 2147483647"] if more else []): o.append("[%s %s]"%(r,d) if d else "[%s]"%r)
    for r in R[8]:
        for i in ["rax","r15"]+(["rbp","r12"] if more else []):
            for s in ("1248" if more else "18"): o+=["[%s + %s * %s]"%(r,i,s),"[%s + %s * %s + 20]"%(r,i,s)]
    return o
P={8:"QWORD PTR ",4:"DWORD PTR ",2:"WORD PTR ",1:"BYTE PTR "}
S={8:'q',4:'l',2:'w',1:'b'}
def imm(x): return (x if x[0]!='-' else "(%s)"%x, x)
r=lambda z:list(zip(R[8],R[z]))
m=lambda z,more=False:[(x,P[z]+x) for x in ind(more)]
I=[imm(x) for x in ("1","18")]
RANGE={8:2**31,4:2**31,2:2**15,1:2**7}
def imms(z): return [imm(str(v)) for v in (0,2,127,128,-1,-127,-128,-129,255,256,1000,-1000,32767,-32768,40000,2147483647,-2147483648) if -RANGE[z]<=v<RANGE[z]]
def lines(mi,ai,A,B=None):
    if B is None: return [("%s %s;"%(mi,x),"%s %s"%(ai,y)) for x,y in A]
    return [("%s %s, %s;"%(mi,x,u),"%s %s, %s"%(ai,y,v)) for x,y in A for u,v in B]
al={'lt':'l','gt':'g','eq':'e'}
files={}
for n in "mov add adc sub sbb and or xor cmp".split():
    for z in (8,4,2,1):
        files[n+S[z]]=lines(n+S[z],n,r(z),r(z)+m(z)+I)+lines(n+S[z],n,m(z),r(z)+I)
        files[n+S[z]+" imm"]=lines(n+S[z],n,r(z)+m(z,True),imms(z))
files["movq imm64"]=lines("movq","movabs",r(8),[("%d"%v,"%d"%v) for v in (2**31,2**32,2**63-1)])
for n in "shl shr sal sar rol ror".split():
    for z in (8,4):
        files[n+S[z]]=lines(n+S[z],n,r(z)+m(z),I+[("rcx","cl")])
        files[n+S[z]+" count"]=lines(n+S[z],n,r(z),[imm(str(v)) for v in range(-128,128)])
for z in (8,1):
    files['test'+S[z]]=lines('test'+S[z],'test',r(z)+m(z),r(z)+I)
    files['test'+S[z]+" imm"]=lines('test'+S[z],'test',r(z)+m(z,True),imms(z))
files['xchgq']=lines('xchgq','xchg',r(8),r(8)+m(8,True))+lines('xchgq','xchg',m(8,True),r(8))
for n in ("push","pop","neg"): files[n+"q"]=lines(n+"q",n,r(8)+m(8,True))
for c in C:
    for z in (8,4,2): files['cmov'+c+S[z]]=lines('cmov'+c+S[z],'cmov'+al.get(c,c),r(z),r(z)+m(z))
    files['set'+c]=lines('set'+c,'set'+al.get(c,c),r(1)+m(1))
    files['j'+c]=[("j%s a;"%c,"j%s ext"%al.get(c,c))]
xs=[("xmm%d"%i,)*2 for i in range(16)]
XM=[(x,"XMMWORD PTR "+x) for x in ind(True)]
for a,b,d,s in [("movsxl","movsxd",8,4),("movzxw","movzx",8,2),("movsxw","movsx",8,2),("movzxb","movzx",8,1),("movsxb","movsx",8,1),("imul","imul",8,8)]: files[a]=lines(a,b,r(d),r(s)+m(s,True))
files["lea"]=lines("lea","lea",r(8),[(x,x) for x in ind(True)])
for a,b,z in [("idivq","idiv",8),("idivl","idiv",4),("div","div",8),("divl","div",4),("divq","div",8),("idiv","idiv",8)]: files[a]=lines(a,b,r(z)+m(z,True))
for n in "addsd subsd mulsd divsd minsd maxsd sqrtsd ucomisd movsd".split(): files[n]=lines(n,n,xs,xs+m(8,True))
files["movsd store"]=lines("movsd","movsd",m(8,True),xs)
for n in "sqrtpd xorps andpd xorpd".split(): files[n]=lines(n,n,xs,xs+XM)
files["roundpd"]=[("roundpd %s, %s, %d;"%(x,u,k),"roundpd %s, %s, %d"%(x,v,k)) for x,_ in xs for u,v in xs+XM for k in (0,1,11,255)]
files["cvtsi2sdq"]=lines("cvtsi2sdq","cvtsi2sd",xs,r(8)+m(8,True)); files["cvttsd2siq"]=lines("cvttsd2siq","cvttsd2si",r(8),xs+m(8,True))
files["movq xmm"]=lines("movq","movq",xs,r(8)+xs+m(8,True))+lines("movq","movq",r(8)+m(8,True),xs)
for n in ("lzcnt","tzcnt","popcnt"):
    for z in (8,4): files[n+S[z]]=lines(n+S[z],n,r(z),r(z)+m(z,True))
files["jmp"]=lines("jmp","jmp",r(8)+m(8,True))+[("jmp a;","jmp ext")]; files["call"]=lines("call","call",r(8)+m(8,True))+[("call a;","call ext")]
files["none"]=[(a+";",a) for a in "cqo cdq leave ret syscall int3".split()]
rl=[("[rip + a]","[rip + ext]")]
files["labels"]=lines("lea","lea",r(8),rl)+lines("addl","add",[(a,P[4]+b) for a,b in rl],r(4)+imms(4))+lines("movb","mov",[(a,P[1]+b) for a,b in rl],r(1)+imms(1))+lines("movsd","movsd",xs,[(a,P[8]+b) for a,b in rl])+lines("roundpd","roundpd",xs,[(a+", 1","XMMWORD PTR "+b+", 1") for a,b in rl])
tot=0; diff=0
for f,ls in files.items():
    open('t.s','w').write(".intel_syntax noprefix\n.text\n"+"".join(b+"\n" for a,b in ls))
    out=subprocess.run("as -aln=t.lst t.s -o t.o",shell=True,capture_output=True,text=True)
    if 'Error' in out.stderr: print(f,out.stderr[:300]); continue
    by={}; cur=None
    for l in open('t.lst'):
        q=re.match(r"\s*(\d+) ([0-9a-f]{4,}) ([0-9A-F]+)",l)
        if q: cur=int(q.group(1)); by[cur]=by.get(cur,"")+q.group(3).lower(); continue
        q=re.match(r"\s*(\d+)\s+([0-9A-F]+)\s*$",l)
        if q and cur==int(q.group(1)): by[cur]+=q.group(2).lower()
    mine=subprocess.run(["./gasd",sys.argv[1]],input="".join(a+"\n" for a,b in ls),capture_output=True,text=True).stdout.split("\n")
    bad=[(a,b,mine[k],by.get(k+3,"")) for k,(a,b) in enumerate(ls) if mine[k]!=by.get(k+3,"")]
    tot+=len(ls); diff+=len(bad)
    if bad:
        print(f,len(ls),"differ",len(bad))
        for x in random.sample(bad,min(len(bad),3)): print("   ",x)
print("compared",tot,"differ",diff)

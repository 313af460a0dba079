"""Compare SpecX86.decode (extracted) with objdump on generated byte strings."""
import random, subprocess, re, sys
seed = int(sys.argv[1]) if len(sys.argv) > 1 else 1
N = int(sys.argv[2]) if len(sys.argv) > 2 else 20000
R = random.Random(seed)
def rb(): return R.choice([0,1,0x7f,0x80,0xff,R.randrange(256),R.randrange(256),R.randrange(256)])
def cand():
    b=[]
    r=R.random()
    if r<.15: b.append(0x66)
    elif r<.25: b.append(0xf2)
    elif r<.35: b.append(0xf3)
    elif r<.38: b+= R.choice([[0x66,0xf2],[0x66,0xf3]])
    if R.random()<.6: b.append(0x40+R.randrange(16))
    r=R.random()
    if r<.6: b.append(R.randrange(256))
    elif r<.97: b+=[0x0f,R.choice([R.randrange(256),R.choice([5,0x10,0x11,0x2a,0x2c,0x2e,0x6e,0x7e,0xd6,0xaf,0xb6,0xb7,0xbe,0xbf,0xb8,0xbc,0xbd,0x51,0x54,0x57,0x58,0x59,0x5c,0x5d,0x5e,0x5f])])]
    else:
        b=[0x66]+([0x40+R.randrange(16)] if R.random()<.5 else [])+[0x0f,0x3a,9]
    b+=[R.choice([R.randrange(256),R.choice([0x05,0x04,0x44,0x84,0x24,0x64,0xa4,0x25,0x0d])])]
    b+=[R.choice([R.randrange(256),0x24,0x25,0x65,0xe4])]
    while len(b)<24: b.append(rb())
    return b[:24]
cands=[cand() for _ in range(N)]
out=subprocess.run(['./dec'],input='\n'.join(bytes(c).hex() for c in cands)+'\n',capture_output=True,text=True).stdout.split('\n')[:N]
ok=[(c,o.split('|')) for c,o in zip(cands,out) if o!='-']
SLOT=32
blob=b''.join(bytes(c[:int(o[0])])+b'\x90'*(SLOT-int(o[0])) for c,o in ok)
open('blob.bin','wb').write(blob)
dis=subprocess.run(['objdump','-D','-b','binary','-m','i386:x86-64','-M','intel','--insn-width=16','blob.bin'],capture_output=True,text=True).stdout
lines={}
for l in dis.split('\n'):
    m=re.match(r'\s*([0-9a-f]+):\t([0-9a-f ]+?)\s*\t(.*)$',l)
    if m: lines[int(m.group(1),16)]=(len(m.group(2).split()),m.group(3).strip())
names64="rax rcx rdx rbx rsp rbp rsi rdi r8 r9 r10 r11 r12 r13 r14 r15".split()
names32="eax ecx edx ebx esp ebp esi edi".split()+["r%dd"%i for i in range(8,16)]
names16="ax cx dx bx sp bp si di".split()+["r%dw"%i for i in range(8,16)]
names8="al cl dl bl spl bpl sil dil".split()+["r%db"%i for i in range(8,16)]
hi="ah ch dh bh".split()
REG={}
for i in range(16):
    REG[names64[i]]=("r64",i);REG[names32[i]]=("r32",i);REG[names16[i]]=("r16",i);REG[names8[i]]=("r8",i);REG["xmm%d"%i]=("x",i)
for i in range(4): REG[hi[i]]=("h",i)
def num(s):
    neg=s.startswith('-'); s=s.lstrip('-')
    v=int(s,16); return -v if neg else v
SZ={'BYTE':8,'WORD':16,'DWORD':32,'QWORD':64,'XMMWORD':128}
def operand(t,end,sz):
    t=t.strip()
    if t in REG: k,i=REG[t]; return "%s:%d"%(k,i),None
    m=re.match(r'^(?:(\w+) PTR )?(?:ds:)?(\[.*\]|0x[0-9a-f]+)$',t)
    if m and (m.group(2).startswith('[') or 'ds:' in t):
        body=m.group(2).strip('[]'); base='-';idx='-';sc=1;disp=0
        toks=re.findall(r'([+-]?)([^+-]+)',body)
        for sg,x in toks:
            if x in('rip',): base='rip'
            elif x in REG and base=='-' and idx=='-' : base=str(REG[x][1])
            elif '*' in x:
                a,b=x.split('*')
                idx='-' if a=='riz' else str(REG[a][1]); sc=int(b) if a!='riz' else 1
            elif x=='riz': pass
            else:
                v=int(x,16); disp=-v if sg=='-' else v
        if disp>=2**63: disp-=2**64
        return "m:%s:%s:%d:%d"%(base,idx,sc,disp),(SZ.get(m.group(1)) if m.group(1) else None)
    if re.match(r'^-?0x[0-9a-f]+$|^-?\d+$',t):
        v=int(t,16) if 'x' in t else int(t)
        return "n:%d"%v,None
    return "?"+t,None
bad=0;skipped=0;seen={}
for k,(c,o) in enumerate(ok):
    L,txt=lines.get(k*SLOT,(0,'?'))
    txt=re.sub(r'\s+#.*$','',txt); txt=re.sub(r'\s*<.*>$','',txt)
    ln,mn,w,ops=int(o[0]),o[1],int(o[2]),[x for x in o[3].split(';') if x]
    raw=txt
    # redundant prefixes
    red=False
    while True:
        m=re.match(r'^(rex(?:\.\w+)?|data16|repz|repnz|rep|bnd|cs|ds|notrack|xacquire|xrelease)\s+(.*)$',txt)
        if not m: break
        red=True; txt=m.group(2)
    m=re.match(r'^(\S+)\s*(.*)$',txt); om=m.group(1); oo=m.group(2)
    oo=[x for x in re.split(r',(?![^\[]*\])',oo) if x]
    ps=[operand(x,0,w) for x in oo]
    got=[p[0] for p in ps]; sizes=[p[1] for p in ps if p[1]]
    # expected mnemonic
    exp={'signrdx':{16:'cwd',32:'cdq',64:'cqo'}.get(w),'movfps':'movups','movfpd':'movupd','movfss':'movss','movfsd':'movsd'}.get(mn,mn)
    alt=[exp]
    if mn=='imul1': alt=['imul']
    if mn.startswith('movzx'): alt=['movzx']
    if mn.startswith('movsx'): alt=['movsx','movsxd']
    if mn=='mov': alt=['mov','movabs']
    if mn=='movx': alt=['movd','movq']
    if mn=='nop': alt=['nop','xchg']
    if mn=='test': alt=['test']
    if mn=='shl': alt=['shl','sal']
    good = om in alt and L==ln
    # operands
    def cmpop(e,g):
        if e==g: return True
        if e.startswith('i:') and g.startswith('n:'):
            a=int(e[2:]);b=int(g[2:]); 
            return (a-b)%(2**w if mn!='roundpd' else 256)==0 or a==b
        if e.startswith('rel:') and g.startswith('n:'):
            return (int(g[2:])-(k*SLOT+ln)-int(e[4:]))%2**64==0
        if e.startswith('m:') and g.startswith('m:'):
            return (e.split(':')[:4]==g.split(':')[:4]) and (int(e.split(':')[4])-int(g.split(':')[4]))%2**64==0
        return False
    if good and mn not in('nop','ret','leave','syscall','int3','signrdx'):
        eo=list(ops); go=list(got)
        if mn in('rol','ror','rcl','rcr','shl','shr','sar') and len(go)==1: go.append('n:1')
        if mn in('rol','ror','rcl','rcr','shl','shr','sar') and len(go)==2 and go[1].startswith('n:'):
            v=int(go[1][2:])%(64 if w==64 else 32); go[1]='n:%d'%v
        if mn=='xchg' and len(eo)==2: 
            good=len(go)==2 and ((cmpop(eo[0],go[0]) and cmpop(eo[1],go[1])) or (cmpop(eo[0],go[1]) and cmpop(eo[1],go[0])))
        else: good=len(eo)==len(go) and all(cmpop(a,b) for a,b in zip(eo,go))
        # memory operand size
        if good and sizes:
            sz=sizes[0]
            src=w
            if mn.startswith('movzx') or mn.startswith('movsx'): src=int(mn[5:])
            if mn.startswith('set'): src=8
            if mn.endswith('sd') and mn!='movx' : src=64
            if mn.endswith('ss'): src=32
            if mn.endswith('ps') or mn.endswith('pd'): src=128
            if mn.startswith('cvtsi2'): src=w
            if mn=='cvttsd2si': src=64
            if mn=='cvttss2si': src=32
            if mn=='lea': src=sz
            if sz!=src: good=False
    seen[mn]=seen.get(mn,0)+1
    if not good:
        key=(mn,om,red)
        bad+=1
        if bad<=40: print(bytes(c[:ln]).hex(),'spec',o,'objdump',L,raw)
print('compared',len(ok),'of',N,'bad',bad, 'mnemonics',len(seen))
if len(sys.argv)>3: print(sorted(seen.items()))

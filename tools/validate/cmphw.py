"""Compare SpecMachine.cpu_step (extracted) with the host CPU on random single instructions and states."""
import random, subprocess, sys, struct, collections
seed=int(sys.argv[1]) if len(sys.argv)>1 else 1
N=int(sys.argv[2]) if len(sys.argv)>2 else 5000
R=random.Random(seed)
CODE=0x30000000; DATA=0x20000000; DSZ=0x1000; M64=2**64
OPS1=list(range(256))
OPS2=[5,0x10,0x11,0x2a,0x2c,0x2e,0x6e,0x7e,0xd6,0xaf,0xb6,0xb7,0xbe,0xbf,0xb8,0xbc,0xbd,0x51,0x54,0x57,0x58,0x59,0x5c,0x5d,0x5e,0x5f]+list(range(0x40,0x50))+list(range(0x80,0x90))+list(range(0x90,0xa0))
def cand():
    b=[]
    r=R.random()
    if r<.15: b.append(0x66)
    elif r<.3: b.append(0xf2)
    elif r<.35: b.append(0xf3)
    if R.random()<.6: b.append(0x40+R.randrange(16))
    r=R.random()
    if r<.5: b.append(R.choice([R.randrange(256),0x80,0x81,0x83,0xc0,0xc1,0xd0,0xd1,0xd2,0xd3,0xf6,0xf7,0xfe,0xff,0xc3,0xc9,0x99,0x87,0x86,0x89,0x8b,0x88,0x8a,0xc7,0xc6,0x8d,0x63,0x8f]))
    elif r<.75: b+=[0x0f,R.choice(OPS2)]
    elif r<.97:
        b=[R.choice([0xf2,0xf2,0x66])]+([0x40+R.randrange(16)] if R.random()<.6 else [])+[0x0f,R.choice([0x10,0x11,0x2a,0x2c,0x2e,0x51,0x54,0x57,0x58,0x59,0x5c,0x5d,0x5e,0x5f])]
        if R.random()<.1: b=[0xf3]+b[1:-1]+[R.choice([0xb8,0xbc,0xbd,0x7e])]
    else: b=[0x66]+([0x40+R.randrange(16)] if R.random()<.5 else [])+[0x0f,0x3a,9]
    k=len(b)
    b+=[R.choice([R.randrange(256),R.randrange(256)|0xc0,R.choice([0x05,0x04,0x44,0x84,0x24,0x64,0xa4,0x25,0x0d])])]
    b+=[R.choice([R.randrange(256),0x24,0x25,0x65,0xe4])]
    while len(b)<24: b.append(R.choice([0,1,0x7f,0x80,0xff,R.randrange(256),R.randrange(256)]))
    return b,k
def gval():
    r=R.random()
    if r<.35: return R.choice([0,1,2,3,0x7f,0x80,0xff,0x7fff,0x8000,0xffff,0x7fffffff,0x80000000,0xffffffff,2**63-1,2**63,M64-1,M64-2,M64-128,2**63+1])
    if r<.55: return R.randrange(256)
    if r<.7: return R.randrange(2**32)
    if r<.8: return 1<<R.randrange(64)
    return R.randrange(M64)
def fval():
    r=R.random()
    if r<.3: return R.choice([0,2**63,0x7ff0000000000000,0xfff0000000000000,0x7ff8000000000000,0xfff8000000000000,0x7ff0000000000001,0xfff4000000000abc,0x7ff8000000000123,1,2**63+1,0x000fffffffffffff,0x0010000000000000,0x7fefffffffffffff,0x41dfffffffc00000,0xc1e0000000000000,0x41e0000000000000,0x43e0000000000000,0xc3e0000000000000,0x43dfffffffffffff,0x3fe0000000000000,0x3fdfffffffffffff])
    if r<.6: return struct.unpack('<Q',struct.pack('<d',R.choice([R.randrange(-20,20)/2,R.uniform(-1e3,1e3),R.uniform(-1,1)*2.0**R.randrange(-60,70),float(R.randrange(-2**53,2**53))])))[0]
    if r<.75: return (R.randrange(2)<<63)|(R.choice([0,0,1,2,2046,2045,1023,1022,1024])<<52)|R.choice([0,1,2**52-1,R.randrange(2**52)])
    return R.randrange(M64)
def le8(v): return struct.pack('<Q',v%M64)
cs=[cand() for _ in range(N)]
dec=subprocess.run(['./dec'],input='\n'.join(bytes(c).hex() for c,_ in cs)+'\n',capture_output=True,text=True).stdout.split('\n')
tests=[]
for (c,k),d in zip(cs,dec):
    if d=='-': continue
    if '|syscall|' in d: continue
    ln,mn,w,ops=d.split('|'); ln=int(ln); ops=[o for o in ops.split(';') if o]
    c=c[:ln]; pc=CODE+0x100+R.randrange(0x200)
    g=[gval() for _ in range(16)]
    g[4]=DATA+R.randrange(64,DSZ-64)
    if R.random()<.5: g[4]&=~15
    if mn=='leave' or R.random()<.1: g[5]=DATA+R.randrange(64,DSZ-64)
    if mn in('div','idiv'):
        if R.random()<.5: g[2]=R.choice([0,0,M64-1,1,2])
        else: g[2]=R.randrange(1<<R.randrange(1,64))
    T=DATA+R.randrange(64,DSZ-64)
    if R.random()<.6: T&=~15
    mem=[o for o in ops if o.startswith('m:')]
    pa=g[4]
    if mem:
        _,b,i,s,dp=mem[0].split(':'); s=int(s); dp=int(dp)
        if b=='rip':
            nd=T-(pc+ln); c[k+1:k+5]=list(struct.pack('<i',nd))
        elif b=='-' and i=='-':
            c[k+2:k+6]=list(struct.pack('<i',T))
        elif b=='-':
            i=int(i); T=T+((dp-T)%s); g[i]=((T-dp)%M64)//s
            if R.random()<.3: g[i]=(g[i]+R.randrange(s)*(M64//s))%M64
        elif i=='-': g[int(b)]=(T-dp)%M64
        else:
            b=int(b);i=int(i)
            if b==i:
                if s==1: T=T+((dp-T)%2); g[b]=((T-dp)%M64)//2
                else: g[b]=((T-dp)*pow(1+s,-1,M64))%M64
            else:
                if i==4: continue
                if R.random()<.5: g[i]=R.randrange(64)
                g[b]=(T-g[i]*s-dp)%M64
        pa=T
    isfp=mn.endswith('sd') or mn.endswith('pd') or mn in('cvttsd2si',)
    if mn in('jmp','call','ret'):
        patch=le8(R.choice([CODE+R.randrange(0x1000),R.randrange(2**46)]))
        for o in ops:
            if o.startswith('r64:') and R.random()<.8: g[int(o[4:])]=R.randrange(2**46)
    else: patch=b''.join(le8(fval() if isfp or R.random()<.2 else gval()) for _ in range(2))
    x=[(fval()<<64)|fval() for _ in range(16)]
    if isfp and R.random()<.2: x[1]=x[2]=x[R.randrange(16)]
    fl=''.join(R.choice('01') for _ in range(5))
    line=' '.join(['%x'%pc,bytes(c).hex(),fl,'%x'%pa,patch.hex()]+['%x'%v for v in g]+['%032x'%v for v in x])
    tests.append((d,c,line,T if mem else None,g))
hw=subprocess.run(['./hw'],input='\n'.join(t[2] for t in tests)+'\n',capture_output=True,text=True).stdout.strip().split('\n')
assert len(hw)==len(tests),(len(hw),len(tests))
lines=[]
for t,h in zip(tests,hw):
    ad=set()
    if not h.startswith('F'):
        for e in h.split(' ')[34:]: ad.add(int(e.split(':')[0],16))
    for a in ([t[3]] if t[3] else [])+[t[4][4]]:
        for q in range(a-20,a+36): ad.add(q)
    lines.append(t[2]+' '+' '.join('%x'%a for a in sorted(ad) if DATA<=a<DATA+DSZ))
import concurrent.futures as cf
def runsim(chunk): return subprocess.run(['./sim'],input='\n'.join(chunk)+'\n',capture_output=True,text=True).stdout.strip().split('\n')
K=3; n=(len(lines)+K-1)//K
with cf.ThreadPoolExecutor(K) as ex: sims=sum(ex.map(runsim,[lines[i:i+n] for i in range(0,len(lines),n)]),[])
assert len(sims)==len(lines),(len(sims),len(lines))
cnt=collections.Counter();bad=0;none_ok=collections.Counter();some_fault=collections.Counter();ex=collections.Counter();per=collections.Counter()
def norm(l):
    p=l.split(' '); return [int(p[0],16),p[1]]+[int(v,16) if v!='NEG' else -1 for v in p[2:34]]+[tuple(p[34:])]
for t,h,s in zip(tests,hw,sims):
    mn=t[0].split('|')[1]
    if h[0]=='F' and s=='N': cnt['both fault']+=1; continue
    if s=='N': cnt['undescribed']+=1; none_ok[mn+t[0].split('|')[2]]+=1; continue
    if h[0]=='F':
        cnt['hw faults only']+=1; some_fault[mn+' '+h]+=1
        if some_fault[mn+' '+h]<=1 and len(sys.argv)>3: print('HWFAULT',t[0],bytes(t[1]).hex(),h,s[:40])
        continue
    if s.startswith('NEG'): cnt['pc below 0']+=1; continue
    a=norm(h);b=norm(s)
    okf=all(q=='?' or q==p for p,q in zip(a[1],b[1]))
    a[1]=b[1]=''
    if okf and a==b: cnt['agree']+=1; per[mn]+=1
    else:
        bad+=1; ex[mn]+=1
        if ex[mn]<=2:
            print('DIFF',t[0],bytes(t[1]).hex()); print('  in',t[2]); 
            for i,(p,q) in enumerate(zip(h.split(' ')[:34],s.split(' ')[:34])):
                if i==1 or (int(p,16)!=int(q,16) if q!='NEG' else True): print('  ',i,p,q)
            print('  mem',a[-1],b[-1])
print(dict(cnt),'bad',bad)
if len(sys.argv)>3:
    print('undescribed in the model',dict(none_ok)); print('hw faults only',dict(some_fault)); print('agree per mnemonic',len(per),sorted(per.items()))

#!/usr/bin/env python3
"""Compute the certificates of rocq/theories/Noise.v for given noise parameters.

The numbers are only suggestions: Filter.v checks every inequality it uses.
Usage: gen_noise.py > certificates.txt
"""
import cmath
import math
import sys
from fractions import Fraction as Fr

def dot(a,b):
    s=0.0
    for x,y in zip(a,b): s=s+x*y
    return s
T=[[1.,1.,.5,1/6],[0.,1.,1.,.5],[0.,0.,1.,1.],[0.,0.,0.,1.]]
def tr(m): return [list(r) for r in zip(*m)]
def mul(a,b):
    bt=tr(b); return [[dot(r,c) for c in bt] for r in a]
def add(a,b): return [[x+y for x,y in zip(r,s)] for r,s in zip(a,b)]
def outer(a,b): return [[x*y for y in b] for x in a]
G=[1/6,.5,1.,1.]; H=[1.,0.,0.,0.]
def step(P,pn,mn):
    Q=[[x*pn for x in r] for r in outer(G,G)]
    P=add(mul(mul(T,P),tr(T)),Q)
    row=[dot(H,c) for c in tr(P)]  # vec4_mat
    s=dot(row,H)+mn
    K=[x/s for x in row]
    KH=outer(K,H)
    I=[[(1. if i==j else 0.)-KH[i][j] for j in range(4)] for i in range(4)]
    P2=add(mul(mul(I,P),tr(I)),[[x*mn for x in r] for r in outer(K,K)])
    return P2,K
def run(pn,mn,N=100000):
    P=[[1. if i==j else 0. for j in range(4)] for i in range(4)]
    seen={}; Ks=[]
    for n in range(N):
        key=tuple(x for r in P for x in r)
        if key in seen: return n,seen[key],Ks
        seen[key]=n
        P,K=step(P,pn,mn); Ks.append(K)
    return None,None,Ks
def charpoly(M):
    n=4; c=[1.0]; A=[[0]*4 for _ in range(4)]
    I=[[float(i==j) for j in range(4)] for i in range(4)]
    Mk=I
    # Faddeev-LeVerrier
    A=[r[:] for r in I]
    for k in range(1,5):
        B=[[sum(M[i][l]*A[l][j] for l in range(4)) for j in range(4)] for i in range(4)]
        ck=-sum(B[i][i] for i in range(4))/k; c.append(ck)
        A=[[B[i][j]+(ck if i==j else 0) for j in range(4)] for i in range(4)]
    return c
def roots(c):
    z=[(0.4+0.9j)**k for k in range(4)]
    for _ in range(2000):
        for i in range(4):
            p=0
            for a in c: p=p*z[i]+a
            d=1
            for j in range(4):
                if j!=i: d*=z[i]-z[j]
            z[i]-=p/d
    return z
def Mof(K): return [[T[i][j]-K[i]*T[0][j] for j in range(4)] for i in range(4)]
def lefteig(M,lam):
    # solve u (M-lam)=0 : inverse iteration on transpose
    n=4; A=[[M[j][i]-(lam+1e-9 if i==j else 0) for j in range(4)] for i in range(4)]
    def solve(A,b):
        A=[r[:]+[b[i]] for i,r in enumerate(A)]
        for i in range(4):
            p=max(range(i,4),key=lambda k:abs(A[k][i])); A[i],A[p]=A[p],A[i]
            for k in range(4):
                if k!=i:
                    f=A[k][i]/A[i][i]
                    A[k]=[x-f*y for x,y in zip(A[k],A[i])]
        return [A[i][4]/A[i][i] for i in range(4)]
    v=[1,0.3+.2j,0.5,-.1j]
    for _ in range(5):
        v=solve(A,v); s=max(abs(x) for x in v); v=[x/s for x in v]
    v=[x/v[0] for x in v] if abs(v[0])>1e-3 else v
    return v
def build(pn,mn,k1,k2):
    n,f,Ks=run(pn,mn,3000); Kb=Ks[-1]; M=Mof(Kb)
    z=sorted([w for w in roots(charpoly(M)) if w.imag>0],key=lambda w:-abs(w))
    S=[];R=[]
    tot=k1+k2; off=0
    for lam,k in zip(z,(k1,k2)):
        u=lefteig(M,lam); r=abs(lam); th=cmath.phase(lam)
        for j in range(k):
            S.append([ (cmath.exp(-1j*math.pi*j/k)*x).real for x in u])
        for j in range(k):
            # functional j after M: Re(e^{-i phi_j} lam u) = r Re(e^{-i(phi_j-th)}u): express as comb of adjacent directions
            psi=math.pi*j/k-th; q=psi/(math.pi/k); lo=math.floor(q); t=psi-lo*math.pi/k
            a=math.sin(math.pi/k-t)/math.sin(math.pi/k); b=math.sin(t)/math.sin(math.pi/k)
            row=[0]*tot
            for idx,w in ((lo,a),(lo+1,b)):
                s=1 if (idx//k)%2==0 else -1
                row[off+idx%k]+=s*w*r
            R.append(row)
        off+=k
    return n,f,Ks,Kb,S,R
def rnd(x,b=24): return Fr(round(x*2**b),2**b)
def up(x,b=10): return Fr(math.ceil(x*2**b),2**b)
def size(v): return sum(abs(x) for x in v)
def gen(name,pn,mn,k1=4,k2=2):
    n,f,Ks,Kb,S,R=build(pn,mn,k1,k2)
    S=[[rnd(x) for x in s] for s in S]; R=[[rnd(x) for x in r] for r in R]; Kb=[rnd(x) for x in Kb]
    rows=[S[0],S[k1//2],S[k1],S[k1+1]]; idx=[0,k1//2,k1,k1+1]
    def inv(A):
        A=[[float(x) for x in r]+[float(i==j) for j in range(4)] for i,r in enumerate(A)]
        for i in range(4):
            p=max(range(i,4),key=lambda k:abs(A[k][i])); A[i],A[p]=A[p],A[i]
            d=A[i][i]; A[i]=[x/d for x in A[i]]
            for k in range(4):
                if k!=i:
                    g=A[k][i]; A[k]=[x-g*y for x,y in zip(A[k],A[i])]
        return [r[4:] for r in A]
    W=inv(rows); m=k1+k2
    def exp(v):
        r=[Fr(0)]*m
        for j,i in enumerate(idx): r[i]=rnd(sum(v[l]*W[l][j] for l in range(4)))
        return r
    U=[exp([float(i==l) for l in range(4)]) for i in range(4)]
    ah=[Fr(1),Fr(1),Fr(1,2),Fr(1,6)]
    H=exp([float(x) for x in ah])
    def comb(r): return [sum(r[j]*S[j][l] for j in range(m)) for l in range(4)]
    def rest(t,r): return size([a-b for a,b in zip(t,comb(r))])
    E=[[Fr(i==l) for l in range(4)] for i in range(4)]
    w=up(max(size(U[i])/(1-rest(E[i],U[i])) for i in range(4))+Fr(1,100))
    c=up(size(H)+rest(ah,H)*w+Fr(1,100))
    def at(s,k): return sum(a*b for a,b in zip(s,k))
    def astep(s): return [s[0],s[0]+s[1],s[0]/2+s[1]+s[2],s[0]/6+s[1]/2+s[2]+s[3]]
    base=[]
    for s,r in zip(S,R):
        mm=[a-at(s,Kb)*b for a,b in zip(astep(s),ah)]
        base.append(size(r)+rest(mm,r)*w)
    def nextb(K,b):
        return max((up(base[i],16)+abs(at(S[i],K)-at(S[i],Kb))*c)*b+abs(at(S[i],K))+up(size(S[i])/256,16) for i in range(m))
    N=n
    K=[[Fr(x) for x in k] for k in Ks]
    b=up(max(abs(s[0]) for s in S)); bs=[b]
    # steady
    tail=None
    fin=[nextb(K[i],Fr(0)) for i in range(len(K)-3,len(K))]
    binf=up(Fr(3,2)*max(fin)/(1-max(base)))
    for i in range(len(K)):
        if bs[-1]<=binf and all(nextb(K[j],binf)<=binf for j in range(i,len(K))):
            break
        bs.append(up(nextb(K[i],bs[-1])))
    bs[-1]=binf
    print(name,'n',n,'f',f,'len bs',len(bs),'max',float(max(bs)),'binf',float(binf),'w',float(w),'c',float(c),file=sys.stderr)
    assert w*max(bs)<=33554432
    def q(x): return "(%d#%d)"%(x.numerator,x.denominator) if x.numerator>=0 else "(-%d#%d)"%(-x.numerator,x.denominator)
    def ql(l): return "["+"; ".join(q(x) for x in l)+"]"
    def q4(v): return "mkQ4 "+" ".join(q(x) for x in v)
    def rowtxt(i):
        return "mkRow (%s) %s %s %s %s"%(q4(S[i]),ql(R[i]),q(up(base[i],16)),q(at(S[i],Kb)),q(up(size(S[i])/256,16)))
    out="Definition %s : certificate := (mkCert\n  [%s]\n  (%s)\n  [%s]\n  %s\n  %s %s\n  %s\n  %d %d)%%Q.\n"%(name,";\n   ".join(rowtxt(i) for i in range(m)),q4(Kb),";\n   ".join(ql(u) for u in U),ql(H),q(w),q(c),ql(bs),max(f,len(bs)),n-f)
    return out
if __name__ == "__main__":
    print(gen("cert_default", .00026458, .026458))

# Writes a Coq file that runs the model of samplerz (array overload, binary64) on the known answers FROM..TO-1 of
# /repo/tests/test_samplerz.cpp and prints how many there are and how many agree.  A test of the model, not a proof:
#   python3 tests/samplerz_kats.py 0 3072 > /tmp/k.v && cd rocq && coqc -Q theories Verif /tmp/k.v
import math,re,sys
s=open('/repo/tests/test_samplerz.cpp').read()
ks=re.findall(r'\{\s*(-?[\d.e+-]+),\s*([\d.]+),\s*([\d.]+),\s*((?:"[0-9A-F]*"\s*)+),\s*(-?\d+)\s*\}',s)
print(len(ks),file=sys.stderr)
def fl(x):
    x=float(x)
    if x==0: return 'S754_zero false'
    mm,ee=math.frexp(abs(x)); m=int(mm*2**53); e=ee-53
    return 'S754_finite %s %d (%d)'%('true' if x<0 else 'false',m,e)
out=[]
for mu,sp,sm,b,z in ks:
    h=''.join(re.findall(r'[0-9A-F]+',b)); by=bytes.fromhex(h)
    out.append('((%s, %s, %s), [%s], (%s)%%Z)'%(fl(mu),fl(sp),fl(sm),'; '.join(map(str,by)),z))
a,bb=map(int,sys.argv[1:3])
print('''From Coq Require Import SpecFloat. From Verif Require Import Base M_float M_ieee M_samp.
Open Scope Z_scope.
Definition kats : list ((spec_float*spec_float*spec_float) * list Z * Z) := [''')
print(';\n'.join(out[a:bb]))
print('''].
Definition ok1 (k : (spec_float*spec_float*spec_float) * list Z * Z) : bool :=
  let '((mu,sp,sm),b,z) := k in
  match samplerz_arr F64 50 mu sp sm b (length b) with Ok (v,n) => (v =? z) && Nat.eqb n (length b) | _ => false end.
Time Eval vm_compute in (length kats, length (filter ok1 kats)).''')

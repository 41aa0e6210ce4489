import re
s=open('/repo/rosemary/number_theory/prime_list.py').read()
nums=[int(x) for x in re.findall(r'\d+', s[s.index('['):])]
print(len(nums), nums[:5], nums[-3:], nums==sorted(set(nums)))
K=500
with open('/verif/rocq/theories/PrimeList_Data.v','w') as f:
    f.write('''(** * rosemary/number_theory/prime_list.py

    Generated from the literal [_PRIME_LIST] (line 3 of prime_list.py) by copying
    the numbers in order, cut into chunks of 500.  [tools/primelist.py]
    regenerates this file. *)
From Coq Require Import ZArith List.
Import ListNotations.
Open Scope Z_scope.

''')
    names=[]
    for i in range(0,len(nums),K):
        nm='chunk%d'%(i//K)
        names.append(nm)
        f.write('Definition %s : list Z := [%s].\n'%(nm,';'.join(map(str,nums[i:i+K]))))
    f.write('\n(** prime_list.py, [_PRIME_LIST]. *)\nDefinition PRIME_LIST : list Z :=\n  concat [%s].\n'%'; '.join(names))

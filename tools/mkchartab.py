#!/usr/bin/env python3
# Writes rocq/theories/CharTabData.v: the tables of x_tables.h and x_charcategory2.h, copied.
import re
D='/repo/src/colorer/strings/legacy/'
def arrays(f):
    t=open(D+f).read()
    t=re.sub(r'//.*','',t); t=re.sub(r'/\*.*?\*/','',t,flags=re.S)
    return dict((n,[int(x,0) for x in re.findall(r'0x[0-9A-Fa-f]+|\d+',b)])
                for n,b in re.findall(r'static unsigned (?:short|int|long) (\w+)\[\]\s*=\s*\{(.*?)\}',t,re.S))
a=arrays('x_tables.h'); b=arrays('x_charcategory2.h')
def lines(f,n):
    t=open(D+f).read().split('\n')
    i=next(k for k,l in enumerate(t) if re.search(r'\b'+n+r'\[\]',l))
    j=next(k for k in range(i,len(t)) if '}' in t[k])
    return f"{f}:{i+1}-{j+1}"
def put(o,n,c,l):
    o.append(f"(* {c} *)"); o.append(f"Definition {n} : list N := [")
    for i in range(0,len(l),32): o.append("; ".join(map(str,l[i:i+32]))+(";" if i+32<len(l) else ""))
    o.append("]%N.")
o=["(* CharTabData.v: the character tables of the legacy build, copied by tools/mkchartab.py from",
   "   src/colorer/strings/legacy/x_tables.h and x_charcategory2.h. *)","From Coq Require Import List NArith.","Import ListNotations."]
put(o,"idx_char_info",lines('x_tables.h','arr_idxCharInfo')+", arr_idxCharInfo",a['arr_idxCharInfo'])
put(o,"char_info",lines('x_tables.h','arr_CharInfo')+", arr_CharInfo",a['arr_CharInfo'])
put(o,"idx_category",lines('x_charcategory2.h','arr_idxCharCategoryIdx')+", arr_idxCharCategoryIdx",b['arr_idxCharCategoryIdx'])
put(o,"category_bits",lines('x_charcategory2.h','arr_idxCharCategory')+", arr_idxCharCategory",b['arr_idxCharCategory'])
open('/verif/rocq/theories/CharTabData.v','w').write("\n".join(o)+"\n")

#!/usr/bin/env python3
"""Copies the tables of src/colorer/strings/legacy/x_encodings.h to rocq/theories/EncTabData.v."""
import re
t = re.sub(r'//.*', '', open('/repo/src/colorer/strings/legacy/x_encodings.h').read())
def arr(n):
    b = re.search(n + r'\[\]\s*=\s*\{(.*?)\};', t, re.S).group(1)
    return [int(x, 0) for x in re.findall(r'0x[0-9A-Fa-f]+|\d+', b)]
E, R = arr('arr_Encodings'), arr('arr_revEncodings')
assert len(E) == 8 * 256 and len(R) % 128 == 0
def rows(l, n):
    out = []
    for i in range(0, len(l), n):
        r = l[i:i + n]
        out.append(' [' + ';\n  '.join('; '.join(map(str, r[j:j + 32])) for j in range(0, n, 32)) + ']')
    return '[\n' + ';\n'.join(out) + '].\n'
names = re.findall(r'\{"([^"]*)",\s*(-?\d+)\}', t)
with open('/verif/rocq/theories/EncTabData.v', 'w') as f:
    f.write("(* EncTabData.v: the tables of the single-byte encodings of the legacy build, copied by\n"
            "   tools/mkenctab.py from src/colorer/strings/legacy/x_encodings.h. *)\n"
            "From Coq Require Import List ZArith.\nFrom Coq Require String.\nFrom Verif Require Import XmlModel.\nImport ListNotations String.StringSyntax.\nOpen Scope Z_scope.\n")
    f.write("(* x_encodings.h:46-56, arr_Encodings, 256 characters for each encoding *)\nDefinition enc_rows : list (list Z) := " + rows(E, 256))
    f.write("(* x_encodings.h:58-106, arr_revEncodings: for each encoding the numbers of 512 blocks *)\nDefinition rev_rows : list (list Z) := " + rows(R[:4096], 512))
    f.write("(* and the blocks of 128 bytes *)\nDefinition rev_blocks : list (list Z) := " + rows(R[4096:], 128))
    f.write("(* x_encodings.h:13-41, arr_idxEncodings *)\nDefinition enc_names : list (list Z * Z) := [\n " +
            ';\n '.join('(lit "%s", %s)' % (n, '(%s)' % p if p[0] == '-' else p) for n, p in names) + "].\n")
RI, RB = R[:4096], [R[i:i+128] for i in range(4096, len(R), 128)]
print(len(names), len(RB), [i for i, b in enumerate(RB) if not any(b)], sum(1 for x in RI if any(RB[x])))

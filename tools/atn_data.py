#!/usr/bin/env python3
"""Writes rocq/theories/AtnData.v: the serialized ATNs of /repo/kfgrammar as Coq lists."""
import re
def load(f):
    s = open(f).read(); k = 'serializedATN = []int32{'; i = s.index(k); j = s.index('}', i)
    return [int(x) for x in re.findall(r'-?\d+', s[i + len(k):j])], s[:i].count('\n') + 1, s[:j].count('\n') + 1
def emit(name, f):
    d, a, b = load('/repo/' + f)
    lines, cur = [], ''
    for t in map(str, d):
        if len(cur) + len(t) + 2 > 118: lines.append(cur); cur = ''
        cur += t + '; '
    lines.append(cur)
    body = '\n   '.join(l.rstrip() for l in lines).rstrip().rstrip(';')
    return f"(** {f} {a}-{b} *)\nDefinition {name} : list Z :=\n  [{body}].\n"
open('/verif/rocq/theories/AtnData.v', 'w').write("""(** The serialized ATNs of the generated lexer and parser, copied from the Go sources by tools/atn_data.py. *)
From Coq Require Export ZArith List.
Export ListNotations.
Local Open Scope Z_scope.

""" + emit('lexer_atn_data', 'kfgrammar/kuneiform_lexer.go') + "\n" + emit('parser_atn_data', 'kfgrammar/kuneiform_parser.go'))

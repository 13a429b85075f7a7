#!/usr/bin/env python3
"""Turn the tests of /repo (kfparser/parser_test.go, utils/annotation_test.go) into Examples about the model.

usage: go_tests.py > rocq/theories/GoTests.v

The composite literals of the test tables are read by a small reader of Go expressions; the five gen... helpers of
parser_test.go (17-107) are followed by hand.
"""
import re, sys
R = '/repo/'
# *** Go tokens and composite literals
def toks(s):
    out = []; i = 0
    while i < len(s):
        if s.startswith('//', i): i = s.index('\n', i)
        elif s[i].isspace(): i += 1
        elif s[i] == '`': j = s.index('`', i + 1); out.append(('s', s[i + 1:j])); i = j + 1
        elif s[i] == '"':
            j = i + 1; v = ''
            while s[j] != '"':
                if s[j] == '\\': raise SystemExit('escape')
                v += s[j]; j += 1
            out.append(('s', v)); i = j + 1
        elif s[i:i+3] == '...': out.append(('p', '...')); i += 3
        else:
            m = re.match(r'[A-Za-z_][\w.]*', s[i:])
            if m: out.append(('w', m.group())); i += m.end()
            else: out.append(('p', s[i])); i += 1
    return out
class P:
    def __init__(p, t): p.t = t; p.i = 0
    def pk(p): return p.t[p.i]
    def nx(p): p.i += 1; return p.t[p.i - 1]
    def eat(p, x):
        if p.pk() == ('p', x): p.i += 1; return True
        return False
    def expr(p):
        p.eat('&')
        k, v = p.pk()
        if k == 's': p.nx(); return v
        if (k, v) == ('p', '{'): return p.lit(None)
        if (k, v) == ('p', '['):
            p.nx(); assert p.eat(']'); w = p.nx()[1]; r = p.lit('[]' + w); p.eat('...'); return r
        assert k == 'w', (k, v); p.nx()
        if p.pk() == ('p', '{'): return p.lit(v)
        if p.eat('('):
            a = []
            while not p.eat(')'): a.append(p.expr()); p.eat(',')
            return ('call', v, a)
        return ('name', v)
    def lit(p, ty):
        assert p.eat('{'); fs = {}; l = []
        while not p.eat('}'):
            if p.pk()[0] == 'w' and p.t[p.i + 1] == ('p', ':'): n = p.nx()[1]; p.nx(); fs[n] = p.expr()
            else: l.append(p.expr())
            p.eat(',')
        return ('lit', ty, fs, l)
def table(src, start):
    """the list of cases of the `tests := []struct {...}{...}` after start"""
    i = src.index(start); i = src.index('tests := []struct', i); i = src.index('{', i)
    d = 1; i += 1
    while d: d += {'{': 1, '}': -1}.get(src[i], 0); i += 1
    return P(toks(src[i:])).lit('tests')[3]
# *** Gallina
def lit(s): assert all(ord(c) < 128 for c in s); return 'lit "' + s.replace('"', '""') + '"'
def par(s): return '(' + s + ')'
NAMES = {'schema.ColInt': 'ColInt', 'schema.ColText': 'ColText', 'schema.ColBlob': 'ColBlob', 'schema.AuxiliaryTypeOwner': 'AuxOwner', 'true': 'true', 'false': 'false'}
def name(n): return NAMES.get(n) or n.replace('schema.', '')
def val(e): return par(lit(e)) if isinstance(e, str) else name(e[1])
def sl(e, f): return 'None' if e is None else par('Some [' + '; '.join(f(x) for x in e[3]) + ']')
def st(e, k): return val(e[2][k]) if k in e[2] else '[]'
def attribute(e): return f"Attribute {st(e,'Type')} " + (par('Some ' + val(e[2]['Value'])) if 'Value' in e[2] else 'None')
def column(e): return f"Column {st(e,'Name')} {st(e,'Type')} {sl(e[2].get('Attributes'), attribute)}"
def index(e): return f"Index {st(e,'Name')} {sl(e[2].get('Columns'), val)} {st(e,'Type')}"
def fkact(e): return f"FKAction {st(e,'On')} {st(e,'Do')}"
def fk(e): return f"FKey {sl(e[2].get('ChildKeys'), val)} {sl(e[2].get('ParentKeys'), val)} {st(e,'ParentTable')} {sl(e[2].get('Actions'), fkact)}"
def tab(e): return f"Table {st(e,'Name')} {sl(e[2].get('Columns'), column)} {sl(e[2].get('Indexes'), index)} {sl(e[2].get('ForeignKeys'), fk)}"
def conf(e): return f"ExtConfig {st(e,'Argument')} {st(e,'Value')}"
def ext(e): return f"Extension {st(e,'Name')} {sl(e[2].get('Config'), conf)} {st(e,'Alias')}"
def action(e):
    g = e[2]; return (f"Action {st(e,'Name')} {sl(g.get('Annotations'), val)} {sl(g.get('Inputs'), val)} {val(g['Public']) if 'Public' in g else 'false'} "
                      f"{st(e,'Mutability')} {sl(g.get('Auxiliaries'), val)} {sl(g.get('Statements'), val)}")
def schema(e): return f"Schema {st(e,'Owner')} {st(e,'Name')} {sl(e[2].get('Tables'), tab)} {sl(e[2].get('Actions'), action)} {sl(e[2].get('Extensions'), ext)}"
def L(ty, **f): return ('lit', ty, f, [])
def S(l): return ('lit', '[]', {}, l) if l else None     # a variadic parameter without arguments is nil
def mk(**f): return {k: v for k, v in f.items() if v is not None}
def rest(a): return a[0][3] if len(a) == 1 and a[0][1].startswith('[]') else a
def col(n, t): return ('lit', 'c', {'Name': n, 'Type': t}, [])
def sch(tables, actions=None): return ('lit', 's', mk(Name='td1', Owner='', Tables=S(tables), Actions=actions), [])
def gen(e):
    if e[0] == 'lit': return e
    f, a = e[1], e[2]
    two = lambda n, **k: ('lit', 't', mk(Name=n, Columns=S([col('tc1', a[0]), col('tc2', a[1])]), **k), [])
    if f == 'genOneTableOneCol': return sch([('lit', 't', {'Name': 'tt1', 'Columns': S([col('tc1', a[0])])}, [])])
    if f == 'genOneTableOneColWithAttrs': return sch([('lit', 't', {'Name': 'tt1', 'Columns': S([('lit', 'c', mk(Name='tc1', Type=a[0], Attributes=S(rest(a[1:]))), [])])}, [])])
    if f == 'genOneTableTwoColWithIndexes': return sch([two('tt1', Indexes=S(rest(a[2:])))])
    if f == 'genTwoTableTwoColWithFks': return sch([two('tt1'), two('tt2', ForeignKeys=S(rest(a[2:])))])
    if f == 'genOneTableTwoColWithActions': return sch([two('tt1')], S(rest(a[2:])))
    raise SystemExit(f)
src = open(R + 'kfparser/parser_test.go').read(); ann = open(R + 'utils/annotation_test.go').read()
print('''(** The tests of /repo, run on the model: kfparser/parser_test.go and utils/annotation_test.go, case by case (made by
    tools/go_tests.py).  They test the model, not the code: where the model gave anything else than the code is expected to, one
    of these would fail.  Nil slices are told from empty ones, as assert.EqualValues does. *)
From Verif Require Import Str Schema Validator ParseKF Annotation LexSpec.
Local Open Scope string_scope.

(** The imported statement parsers on the statements of the tests: SQL by its first word, and what the calls consist of. *)
Definition calls_of_tests : list (string * stmt) :=
  [("act1(@caller,'a','b');", ActionCall (lit "act1") [ABind (lit "@caller"); AExpr; AExpr]);
   ("$v=ext1.call(@caller,'a','b');", ExtCall (lit "ext1") [ABind (lit "@caller"); AExpr; AExpr] [lit "$v"]);
   ("$v=ext1.call(2,'3',$a,@caller,-2,1+-2,(1*2)+3,1<=2,1and$a,lower(@caller),upper(@caller));",
      ExtCall (lit "ext1") [AExpr; AExpr; ABind (lit "$a"); ABind (lit "@caller"); AExpr; AExpr; AExpr; AExpr; AExpr; AExpr; AExpr] [lit "$v"]);
   ("act1(1);", ActionCall (lit "act1") [AExpr]);
   ("$v=ext1.call(@caller);", ExtCall (lit "ext1") [ABind (lit "@caller")] [lit "$v"]);
   ("$var1,$var1=token.balanceOf($param);", ExtCall (lit "token") [ABind (lit "$param")] [lit "$var1"; lit "$var1"]);
   ("act1();", ActionCall (lit "act1") []);
   ("act1($nondefined);", ActionCall (lit "act1") [ABind (lit "$nondefined")]);
   ("$var1=token.balanceOf($nondefined);", ExtCall (lit "token") [ABind (lit "$nondefined")] [lit "$var1"]);
   ("act1(@nondefined);", ActionCall (lit "act1") [ABind (lit "@nondefined")]);
   ("$var1=token.balanceOf(@nondefined);", ExtCall (lit "token") [ABind (lit "@nondefined")] [lit "$var1"]);
   ("$var1,$var1=erc.balanceOf($param);", ExtCall (lit "erc") [ABind (lit "$param")] [lit "$var1"; lit "$var1"])].
Definition test_act (st : str) : res stmt :=
  if mem_str (firstn 6 (lower st)) [lit "select"; lit "insert"; lit "update"; lit "delete"] then Ok Dml
  else match find (fun c => str_eqb (lit (fst c)) st) calls_of_tests with Some (_, r) => Ok r | None => Err (ENew (lit "unknown statement")) end.
Definition test_world : world :=
  World (Externals test_act (fun _ => Ok Datatypes.tt) (fun _ => Ok Datatypes.tt) (fun p => p)) (fun _ => (lit "line 1:0 something", [])).
(** assert.NoError and assert.EqualValues *)
Definition gives (text : str) (s : schema) : Prop := parse_kf test_world text [] Default = Outcome (Some s) [].
(** assert.Error, strings.Contains(err.Error(), text of the sentinel) and assert.ErrorIs *)
Definition complains (text : str) (k : sentinel) : Prop :=
  let l := o_listener (parse_kf test_world text [] Default) in
  no_error (parse_kf test_world text [] Default) = false /\\ err_is l k = true /\\ firstn (length (sentinel_text k)) (list_text l) = sentinel_text k.
''')
n = 0
def ex(kind, title, body):
    global n; n += 1
    print(f"(** {kind}: {title.replace('(*','( *').replace('*)','* )')} *)\nExample test_{n} : {body}.\nProof. vm_compute. repeat split. Qed.")
for c in table(src, 'func TestParse_valid_syntax'): ex('valid syntax', c[3][0], f"gives ({lit(c[3][1])})\n  ({schema(gen(c[3][2]))})")
for c in table(src, 'func TestParse_invalid_syntax'): ex('invalid syntax', c[3][0], f"complains ({lit(c[3][1])}) InvalidSyntax")
def sentinel(e): return e[1].replace('schema.Err', '').replace('ActionVisibility', 'Visibility').replace('ActionMutability', 'Mutability').replace('ActionAuxiliary', 'Auxiliary')
for c in table(src, 'func TestParse_invalid_semantic'): ex('invalid semantic', c[3][0], f"complains ({lit(c[3][1])}) {sentinel(c[3][2])}")
for c in table(ann, 'func TestParseAnnotation'):
    f = c[2]; w = f['wantAnnotation']; i = f['args'][2]['input']
    r = 'AnnErr' if w[0] == 'name' else f"AnnOk (AnnotationValue ({lit(w[2]['Target'])}) [" + '; '.join(f"({lit(a[2]['Name'])}, {lit(a[2]['Value'])})" for a in w[2]['Attributes'][3]) + '])'
    ex('annotation', f['name'], f"parse_annotation ({lit(i)}) = {r}")

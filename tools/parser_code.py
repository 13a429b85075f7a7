#!/usr/bin/env python3
"""Translate the rule functions of /repo/kfgrammar/kuneiform_parser.go into the Coq data of ParserCode.v.

The translation is by shape: every line of every rule function must fit one of the templates of ANTLR's Go target,
otherwise the script stops.  It keeps every state number, token, precedence, mask, decision and alternative.
"""
import re, sys

SRC = '/repo/kfgrammar/kuneiform_parser.go'
lines = open(SRC).read().split('\n')

tokens, rules = {}, {}
for l in lines:
    m = re.match(r'\s*KuneiformParser(\w+)\s*=\s*(-?\d+|antlr\.TokenEOF)\s*$', l)
    if m:
        name, v = m.group(1), m.group(2)
        if name.startswith('RULE_'):
            rules[name[5:]] = int(v)
        else:
            tokens[name] = -1 if v.startswith('antlr') else int(v)

def tok(s):
    return tokens[re.fullmatch(r'KuneiformParser(\w+)', s.strip()).group(1)]

class P:
    def __init__(self, body): self.b = body; self.i = 0
    def peek(self): return self.b[self.i] if self.i < len(self.b) else None
    def next(self): self.i += 1; return self.b[self.i - 1]
    def want(self, s):
        x = self.next()
        if x != s: sys.exit(f'expected {s!r}, found {x!r}')
    def take(self, rx):
        m = re.fullmatch(rx, self.peek() or '')
        if m: self.i += 1
        return m

def haserror(p, comment=True):
    p.want('if p.HasError() {')
    if p.peek() == '// Recognition error - abort rule': p.next()
    p.want('goto errorExit'); p.want('}')

def cond(s):
    s = s.strip()
    depth, parts, cur, i = 0, [], '', 0
    while i < len(s):
        if s[i] == '(': depth += 1
        if s[i] == ')': depth -= 1
        if depth == 0 and s.startswith('||', i): parts.append(cur); cur = ''; i += 2; continue
        cur += s[i]; i += 1
    parts.append(cur)
    out = [atom(x.strip()) for x in parts]
    r = out[0]
    for x in out[1:]: r = f'LaOr ({r}) ({x})'
    return r

def atom(s):
    m = re.fullmatch(r'_la == (KuneiformParser\w+)', s)
    if m: return f'LaIs {z(tok(m.group(1)))}'
    if s[0] == '(' and s[-1] == ')' and not s.startswith('(int64'):
        return cond(s[1:-1])
    m = re.fullmatch(r'\(\(?int64\(_la\) & \^0x3f\) == 0 && \(\(int64\(1\)<<_la\)&(-?\d+)\) != 0\)?', s)
    if m: return f'LaMask 0 {z(int(m.group(1)))}'
    m = re.fullmatch(r'\(\(?int64\(\(_la-(\d+)\)\) & \^0x3f\) == 0 && \(\(int64\(1\)<<\(_la-(\d+)\)\)&(-?\d+)\) != 0\)?', s)
    if m and m.group(1) == m.group(2): return f'LaMask {m.group(1)} {z(int(m.group(3)))}'
    sys.exit('condition: ' + s)

def z(n): return f'({n})' if n < 0 else str(n)

PREDICT = r'p\.GetInterpreter\(\)\.AdaptivePredict\(p\.BaseParser, p\.GetTokenStream\(\), (\d+), p\.GetParserRuleContext\(\)\)'

def block(p, ends):
    out = []
    while p.peek() not in ends and not any(e.endswith(':*') and re.match(e[:-2], p.peek()) for e in ends):
        out += stmt(p)
    return out

def ruleof(name):
    if name == 'fn_arg_expr': return rules['fn_arg_expr']
    return rules[name[0].lower() + name[1:]]

def after_state(p, n, braces):
    """what follows p.SetState(n)"""
    m = p.take(r'p\.Match\((\w+)\)')
    if m: haserror(p); return [f'Match {n} {z(tok(m.group(1)))}']
    m = p.take(r'var _m = p\.Match\((\w+)\)')
    if m:
        t = tok(m.group(1))
        if not p.take(r'localctx\.\(\*\w+\)\.\w+ = _m'): sys.exit('label')
        haserror(p); return [f'Match {n} {z(t)}']
    m = p.take(r'(?:var _x = )?p\.(\w+)\((\d*)\)')
    if m:
        if m.group(2) == '' and m.group(1) == 'Fn_arg_expr': k = 0
        else: k = int(m.group(2) or 0)
        if p.b[p.i - 1].startswith('var _x'):
            if not p.take(r'localctx\.\(\*\w+\)\.\w+ = _x'): sys.exit('label')
        return [f'Call {n} {ruleof(m.group(1))} {k}']
    if p.take(r'_la = p\.GetTokenStream\(\)\.LA\(1\)'):
        m = p.take(r'if !\((.*)\) \{')
        if not m: sys.exit('set: ' + p.peek())
        c = cond(m.group(1))
        p.want('p.GetErrorHandler().RecoverInline(p)'); p.want('} else {')
        p.want('p.GetErrorHandler().ReportMatch(p)'); p.want('p.Consume()'); p.want('}')
        return [f'MatchSet {n} ({c})']
    if p.take(r'p\.GetErrorHandler\(\)\.Sync\(p\)'):
        haserror(p)
        return [f'Sync {n}'] + decision(p)
    sys.exit('after SetState: ' + p.peek())

def lst(xs): return '[' + '; '.join(xs) + ']'

def decision(p):
    if p.take(r'_la = p\.GetTokenStream\(\)\.LA\(1\)'):
        m = p.take(r'if (.*) \{')
        if m:
            c = cond(m.group(1)); body = block(p, ['}']); p.want('}')
            return [f'If ({c}) {lst(body)}']
        m = p.take(r'for (.*) \{')
        if m and not m.group(1).startswith('ok :='):
            c = cond(m.group(1)); body = block(p, ['}']); p.want('}')
            # the body ends with: SetState; Sync; _la = LA(1)
            if not body or not body[-1] == 'LOAD': sys.exit('loop without reload')
            return [f'For ({c}) {lst(body[:-1])}']
        if p.peek() == '}': return ['LOAD']
        if m:
            c = cond(m.group(1)[len('ok := true; ok; ok = '):]); body = block(p, ['}']); p.want('}')
            if not body or not body[-1] == 'LOAD': sys.exit('loop without reload')
            return [f'Do ({c}) {lst(body[:-1])}']
        sys.exit('la: ' + p.peek())
    m = p.take(r'_alt = ' + PREDICT)
    if m:
        d = m.group(1); haserror(p)
        if p.peek() == '}': return [f'REPREDICT {d}']
        m = p.take(r'for _alt != (\d+) && _alt != antlr\.ATNInvalidAltNumber \{')
        e = m.group(1)
        p.want('if _alt == 1 {'); body = block(p, ['}']); p.want('}')
        rest = block(p, ['}']); p.want('}')
        if rest[-1] != f'REPREDICT {d}': sys.exit('loop without prediction')
        return [f'Loop {d} {e} {lst(body)} {lst(rest[:-1])}']
    if p.take(r'switch p\.GetTokenStream\(\)\.LA\(1\) \{'):
        cases, err = [], None
        while True:
            m = p.take(r'case (.*):')
            if m:
                ts = [z(tok(x)) for x in m.group(1).split(',')]
                if p.take(r'p\.EnterOuterAlt\(localctx, \d+\)'): pass
                cases.append(f'({lst(ts)}, {lst(block(p, ["case .*:*", "default:"]))})')
                continue
            p.want('default:')
            if p.peek() == '}': err = 'false'
            else:
                p.want('p.SetError(antlr.NewNoViableAltException(p, nil, nil, nil, nil, nil))'); p.want('goto errorExit'); err = 'true'
            p.want('}')
            return [f'Switch {lst(cases)} {err}']
    m = p.take(r'switch ' + PREDICT + r' \{')
    if m:
        d = m.group(1); cases = []
        while True:
            if p.take(r'case antlr\.ATNInvalidAltNumber:'):
                p.want('goto errorExit'); p.want('}')
                return [f'Choose {d} {lst(cases)}']
            m = p.take(r'case (\d+):')
            p.take(r'p\.EnterOuterAlt\(localctx, \d+\)')
            cases.append(f'({m.group(1)}, {lst(block(p, ["case .*:*"]))})')
    return []

def stmt(p):
    if p.take(r'\{'):
        out = block(p, ['}']); p.want('}'); return out
    if p.take(r'localctx = NewFn_arg_exprContext\(p, _parentctx, _parentState\)'):
        p.want('p.PushNewRecursionContext(localctx, _startState, KuneiformParserRULE_fn_arg_expr)')
        n = p.take(r'p\.SetState\((\d+)\)').group(1)
        k = p.take(r'if !\(p\.Precpred\(p\.GetParserRuleContext\(\), (\d+)\)\) \{').group(1)
        if not p.take(r'p\.SetError\(antlr\.NewFailedPredicateException\(p, "p\.Precpred\(p\.GetParserRuleContext\(\), %s\)", ""\)\)' % k): sys.exit('pred')
        p.want('goto errorExit'); p.want('}')
        return [f'Prec {n} {k}']
    m = p.take(r'p\.SetState\((\d+)\)')
    if m: return after_state(p, m.group(1), False)
    for skip in [r'p\.GetParserRuleContext\(\)\.SetStop\(p\.GetTokenStream\(\)\.LT\(-1\)\)', r'_prevctx = localctx']:
        if p.take(skip): return []
    if p.take(r'if p\.GetParseListeners\(\) != nil \{'):
        p.want('p.TriggerExitRuleEvent()'); p.want('}'); return []
    if p.take(r'p\.EnterOuterAlt\(localctx, 1\)'): return []
    sys.exit('statement: ' + repr(p.peek()))

funs = []
i = 0
while i < len(lines):
    m = re.match(r'func \(p \*KuneiformParser\) (\w+)\((_p int)?\) \(localctx I\w+Context\) \{', lines[i])
    if not m: i += 1; continue
    start = i + 1
    j = i + 1
    while lines[j] != '}': j += 1
    body = [x.strip() for x in lines[i + 1:j]]
    body = [x for x in body if x]
    name = m.group(1)
    i = j + 1
    if name == 'Fn_arg_expr':
        assert body == ['return p.fn_arg_expr(0)']; continue
    p = P(body)
    if name == 'fn_arg_expr':
        for s in ['var _parentctx antlr.ParserRuleContext = p.GetParserRuleContext()', '_parentState := p.GetState()',
                  'localctx = NewFn_arg_exprContext(p, p.GetParserRuleContext(), _parentState)',
                  'var _prevctx IFn_arg_exprContext = localctx',
                  'var _ antlr.ParserRuleContext = _prevctx // TODO: To prevent unused variable warning.']:
            p.want(s)
        s = p.take(r'_startState := (\d+)').group(1)
        m = p.take(r'p\.EnterRecursionRule\(localctx, (\d+), KuneiformParserRULE_(\w+), _p\)')
        assert m.group(1) == s
    else:
        p.want(f'localctx = New{name}Context(p, p.GetParserRuleContext(), p.GetState())')
        m = p.take(r'p\.EnterRule\(localctx, (\d+), KuneiformParserRULE_(\w+)\)')
    st, r = m.group(1), rules[m.group(2)]
    p.take(r'var _la int'); p.take(r'var _alt int')
    code = block(p, ['errorExit:'])
    tail = body[p.i:]
    assert tail == ['errorExit:', 'if p.HasError() {', 'v := p.GetError()', 'localctx.SetException(v)',
        'p.GetErrorHandler().ReportError(p, v)', 'p.GetErrorHandler().Recover(p, v)', 'p.SetError(nil)', '}',
        'p.UnrollRecursionContexts(_parentctx)' if name == 'fn_arg_expr' else 'p.ExitRule()', 'return localctx',
        'goto errorExit // Trick to prevent compiler error if the label is not used'], tail
    funs.append((r, name, start, j + 1, st, code))

funs.sort()
assert [f[0] for f in funs] == list(range(len(rules))), (len(funs), len(rules))
print('''(** The rule functions of kfgrammar/kuneiform_parser.go as data: made from that file by tools/parser_code.py, statement by
    statement, in the order of the rule numbers (kuneiform_parser.go RULE_ constants).  Each entry is the state number the function
    enters with and its body; GoParser.v says what the statements mean and which Go lines they stand for. *)
From Coq Require Import ZArith List.
From Verif Require Import GoParser.
Import ListNotations.
Local Open Scope Z_scope.
''')
print('Definition rule_functions : list (Z * list code) := [')
for n, (r, name, a, b, st, code) in enumerate(funs):
    print(f'  (* {r}: {name}, lines {a}-{b} *)')
    print(f'  ({st}, [' + ';\n    '.join(code) + '])' + (';' if n < len(funs) - 1 else ''))
print('].')

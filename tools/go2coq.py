#!/usr/bin/env python3
"""Print the Go functions of /repo as Coq terms of the syntax in GoLang.v.

usage: go2coq.py REPO > rocq/theories/GoSource.v

The files are read as text.  The translation is syntax directed.  What it
resolves statically, because GoLang.v has no types, is listed here:
  * names of packages, types, functions and package-level values;
  * fields left out of composite literals and variables without initial value
    get their zero value;
  * nil of slice type (a field or a result) is the empty slice, of []byte the
    empty string;
  * reads of maps to bool give the zero value;
  * functions of packages os and os/exec, and those that print, are told from those without effects;
  * x := e for an x of the same block is an assignment;
  * conversions T(e) are dropped (all are between types of one representation);
  * arguments of variadic parameters are packed into a slice;
  * x op= e, x++ are written out, switch is a chain of ifs;
  * variables whose address is taken live in the heap;
  * calls of fields of function type are told from method calls;
  * a function literal, or a function used as a value, is a single return; it is a
    generator of variables if all its types are query.QVar;
  * a struct type with the fields dim and nodes and methods Dim and Nodes that
    return them is a Model.
Functions that use something else are skipped and listed at the end.
"""
import os, re, sys

REPO = sys.argv[1]
FILES = []
for root, dirs, files in sorted(os.walk(REPO)):
    dirs.sort()
    for f in sorted(files):
        p = os.path.relpath(os.path.join(root, f), REPO)
        if f.endswith('.go') and not f.endswith('_test.go') and 'internal' not in p:
            FILES.append(p)
FILES.sort(key=lambda p: p.startswith('examples'))   # otherwise in the order found

# ---------------------------------------------------------------- lexer

TOK = re.compile(r'''
  (?P<nl>\n) | (?P<ws>[ \t\r]+) | (?P<lc>//[^\n]*) | (?P<bc>/\*.*?\*/)
 | (?P<int>\d+) | (?P<str>"(?:\\.|[^"\\])*") | (?P<rune>'(?:\\.|[^'\\])')
 | (?P<id>[A-Za-z_]\w*)
 | (?P<op>\.\.\.|&&|\|\||==|!=|<=|>=|:=|\+=|-=|\*=|/=|\+\+|--|<-|[-+*/%&|^<>=!()\[\]{},;.:])
''', re.X | re.S)
KW = set('break case const continue default defer else for func go goto if import interface map package range return struct switch type var'.split())

def lex(src):
    out, pos, line = [], 0, 1
    def semi():
        if not out: return False
        k, v, _ = out[-1]
        return k in ('id', 'int', 'str', 'rune') and (k != 'id' or v not in KW or v in ('break', 'continue', 'return', 'fallthrough')) \
            or v in ('++', '--', ')', ']', '}')
    while pos < len(src):
        m = TOK.match(src, pos)
        if not m: raise SyntaxError('lex %r' % src[pos:pos+20])
        k, v = m.lastgroup, m.group()
        if k == 'nl':
            if semi(): out.append(('op', ';', line))
            line += 1
        elif k in ('ws', 'lc'): pass
        elif k == 'bc': line += v.count('\n')
        else: out.append((k, v, line))
        pos = m.end()
    if semi(): out.append(('op', ';', line))
    out.append(('eof', '', line))
    return out

class Unsupported(Exception): pass

# ---------------------------------------------------------------- parser
# types:  ('id',name) ('q',pkg,name) ('ptr',t) ('slice',t) ('map',k,v) ('func',) ('struct',[(n,t)]) ('iface',) ('dots',t)
# exprs:  ('int',n) ('str',s) ('id',x) ('sel',e,f) ('idx',e,i) ('slc',e,lo,hi) ('un',op,e) ('bin',op,a,b)
#         ('call',f,args,spread) ('lit',type,[(key,val)]) ('type',t) ('func',params,results,body) ('paren',e) ('assert',e,t)

class P:
    def __init__(self, toks): self.t, self.i, self.nolit = toks, 0, 0
    def pk(self, o=0): return self.t[self.i+o][1] if self.t[self.i+o][0] not in ('str', 'rune') else None
    def kind(self, o=0): return self.t[self.i+o][0]
    def line(self): return self.t[self.i][2]
    def nx(self): self.i += 1; return self.t[self.i-1]
    def ac(self, v):
        if self.pk() == v: self.i += 1; return True
        return False
    def ex(self, v):
        if not self.ac(v): raise SyntaxError('line %d: expected %r, got %r' % (self.line(), v, self.t[self.i]))
    def ident(self):
        k, v, l = self.nx()
        if k != 'id' or v in KW: raise SyntaxError('line %d: identifier, got %r' % (l, v))
        return v

    def type(self):
        if self.ac('*'): return ('ptr', self.type())
        if self.ac('...'): return ('dots', self.type())
        if self.ac('('):
            t = self.type(); self.ex(')'); return t
        if self.ac('['):
            if not self.ac(']'): raise Unsupported('array type')
            return ('slice', self.type())
        if self.ac('map'):
            self.ex('['); k = self.type(); self.ex(']'); return ('map', k, self.type())
        if self.ac('func'):
            self.params(); self.results(); return ('func',)
        if self.ac('struct'):
            self.ex('{'); fs = []
            while not self.ac('}'):
                if self.kind() == 'id' and self.pk(1) == ';':
                    n = self.ident(); fs.append((n, ('id', n), True))
                elif self.kind() == 'id' and self.pk(1) == '.':
                    t = self.type(); fs.append((t[2], t, True))
                else:
                    ns = [self.ident()]
                    while self.ac(','): ns.append(self.ident())
                    t = self.type()
                    fs += [(n, t, False) for n in ns]
                if self.pk() != '}': self.ex(';')
            return ('struct', fs)
        if self.ac('interface'):
            self.ex('{'); d = 1
            while d:
                v = self.nx()[1]; d += (v == '{') - (v == '}')
            return ('iface',)
        n = self.ident()
        if self.ac('.'): return ('q', n, self.ident())
        return ('id', n)

    def params(self):
        """-> [(name or None, type)]"""
        self.ex('('); items = []
        while not self.ac(')'):
            save = self.i
            t = self.type()
            if self.pk() in (',', ')'): items.append((t, None))
            else: items.append((t, self.type()))
            if self.pk() != ')': self.ex(',')
        if any(t for _, t in items):
            out, last = [], None
            for n, t in reversed(items):
                last = t or last
                out.append((n[1], last))
            return out[::-1]
        return [(None, t) for t, _ in items]

    def results(self):
        if self.pk() == '(': return self.params()
        if self.pk() in ('{', ';', ')', ',', None) or self.kind() in ('str', 'eof'): return []
        return [(None, self.type())]

    # expressions
    PREC = {'||': 1, '&&': 2, '==': 3, '!=': 3, '<': 3, '<=': 3, '>': 3, '>=': 3, '+': 4, '-': 4, '*': 5, '/': 5, '%': 5}
    def expr(self, p=1):
        l = self.unary()
        while self.kind() == 'op' and self.PREC.get(self.pk(), 0) >= p:
            op = self.nx()[1]
            r = self.expr(self.PREC[op] + 1)
            l = ('bin', op, l, r)
        return l
    def unary(self):
        if self.kind() == 'op' and self.pk() in ('-', '!', '&', '*', '+'):
            op = self.nx()[1]
            return ('un', op, self.unary())
        return self.primary()
    def primary(self):
        k, v, ln = self.t[self.i]
        if k == 'int': self.nx(); e = ('int', int(v))
        elif k == 'str': self.nx(); e = ('str', eval(v))
        elif k == 'rune': self.nx(); e = ('int', ord(eval(v)))
        elif v == '(':
            self.nx(); self.nolit, s = 0, self.nolit
            e = ('paren', self.expr()); self.nolit = s; self.ex(')')
        elif v == 'func':
            self.nx(); ps = self.params(); rs = self.results()
            e = ('func', ps, rs, self.block())
        elif v in ('[', 'map', 'struct'):
            t = self.type()
            e = self.litbody(t) if self.pk() == '{' else ('type', t)
        else: e = ('id', self.ident())
        while True:
            if self.ac('.'):
                if self.ac('('):
                    t = self.type(); self.ex(')'); e = ('assert', e, t)
                else: e = ('sel', e, self.ident())
            elif self.pk() == '[':
                self.nx(); s, self.nolit = self.nolit, 0
                if self.ac(':'):
                    hi = None if self.pk() == ']' else self.expr(); e = ('slc', e, None, hi)
                else:
                    a = self.expr()
                    if self.ac(':'):
                        hi = None if self.pk() == ']' else self.expr(); e = ('slc', e, a, hi)
                    else: e = ('idx', e, a)
                self.nolit = s; self.ex(']')
            elif self.pk() == '(':
                self.nx(); s, self.nolit = self.nolit, 0
                args, spread = [], False
                while not self.ac(')'):
                    if self.pk() in ('[', 'map', 'struct') :
                        args.append(self.expr())
                    else: args.append(self.expr())
                    if self.ac('...'): spread = True
                    if self.pk() != ')': self.ex(',')
                self.nolit = s
                e = ('call', e, args, spread)
            elif self.pk() == '{' and not self.nolit and self.tyexpr(e):
                e = self.litbody(self.tyexpr(e))
            else: return e
    def tyexpr(self, e):
        if e[0] == 'id': return ('id', e[1])
        if e[0] == 'sel' and e[1][0] == 'id': return ('q', e[1][1], e[2])
        return None
    def litbody(self, t):
        self.ex('{'); s, self.nolit = self.nolit, 0; items = []
        while not self.ac('}'):
            def el():
                return self.litbody(None) if self.pk() == '{' else self.expr()
            a = el()
            if self.ac(':'): items.append((a[1], el()))
            else: items.append((None, a))
            if self.pk() != '}': self.ex(',')
        self.nolit = s
        return ('lit', t, items)

    # statements
    def block(self):
        self.ex('{'); s, self.nolit = self.nolit, 0; out = []
        while not self.ac('}'):
            st = self.stmt()
            if st: out.append(st)
            if st and st[0] == 'label': continue
            if self.pk() != '}': self.ex(';')
        self.nolit = s
        return out
    def exprs(self):
        l = [self.expr()]
        while self.ac(','): l.append(self.expr())
        return l
    def simple(self):
        if self.pk() == 'range':
            self.nx(); return ('range', [], self.expr(), True)
        l = self.exprs()
        if self.pk() in (':=', '=') and self.pk(1) == 'range':
            d = self.nx()[1] == ':='; self.nx(); return ('range', l, self.expr(), d)
        if self.ac(':='): return ('define', l, self.exprs())
        if self.ac('='): return ('assign', l, self.exprs())
        if self.kind() == 'op' and self.pk() in ('+=', '-=', '*=', '/='):
            op = self.nx()[1][0]; return ('assign', l, [('bin', op, l[0], self.expr())])
        if self.ac('++'): return ('assign', l, [('bin', '+', l[0], ('int', 1))])
        if self.ac('--'): return ('assign', l, [('bin', '-', l[0], ('int', 1))])
        return ('expr', l[0])
    def stmt(self):
        v = self.pk()
        if v == ';': return None
        if v == 'var':
            self.nx()
            ns = [self.ident()]
            while self.ac(','): ns.append(self.ident())
            t = None if self.pk() == '=' else self.type()
            e = self.exprs() if self.ac('=') else None
            return ('var', ns, t, e)
        if v == 'return':
            self.nx(); return ('return', [] if self.pk() in (';', '}') else self.exprs(), self.line())
        if v in ('break', 'continue'):
            self.nx()
            if self.kind() == 'id' and self.pk() not in KW: raise Unsupported('labelled ' + v)
            return (v,)
        if v == 'goto': self.nx(); return ('goto', self.ident())
        if v == 'defer': self.nx(); return ('defer', self.expr())
        if v == 'if': return self.ifs()
        if v == 'for':
            self.nx(); s, self.nolit = self.nolit, 1
            init = cond = post = None
            if self.pk() != '{':
                if self.pk() != ';': init = self.simple()
                if self.pk() == ';':
                    self.nx()
                    if self.pk() != ';': cond = self.expr()
                    self.ex(';')
                    if self.pk() != '{': post = self.simple()
                elif init[0] == 'expr': cond, init = init[1], None
            self.nolit = s
            b = self.block()
            if init and init[0] == 'range': return ('range', init, b)
            return ('for', init, cond, post, b)
        if v == 'switch':
            self.nx(); s, self.nolit = self.nolit, 1
            tag = None if self.pk() == '{' else self.expr()
            self.nolit = s; self.ex('{'); cases = []
            while not self.ac('}'):
                if self.ac('default'): c = None
                else: self.ex('case'); c = self.exprs()
                self.ex(':'); body = []
                while self.pk() not in ('case', 'default', '}'):
                    st = self.stmt()
                    if st: body.append(st)
                    if self.pk() != '}': self.ex(';')
                cases.append((c, body))
            return ('switch', tag, cases)
        if v == '{': return ('block', self.block())
        if self.kind() == 'id' and v not in KW and self.pk(1) == ':':
            self.nx(); self.nx(); return ('label', v)
        return self.simple()
    def ifs(self):
        self.ex('if'); s, self.nolit = self.nolit, 1
        init, c = None, self.simple()
        if self.ac(';'): init, c = c, self.simple()
        self.nolit = s
        if c[0] != 'expr': raise SyntaxError('if')
        th = self.block(); el = []
        if self.ac('else'):
            el = [self.ifs()] if self.pk() == 'if' else self.block()
        return ('if', init, c[1], th, el)

# ---------------------------------------------------------------- declarations

types, funcs, values, errs = {}, [], {}, []
imports = {}          # file -> {name: pkg}
LOCAL = 'github.com/jtcaraball/goexpdt/'

def parse_file(path):
    p = P(lex(open(os.path.join(REPO, path)).read()))
    p.ex('package'); pkg = p.ident(); p.ex(';')
    imp = {}
    def one():
        s = eval(p.nx()[1]); imp[s.split('/')[-1]] = s
    while p.ac('import'):
        if p.ac('('):
            while not p.ac(')'): one(); p.ex(';')
        else: one()
        p.ex(';')
    imports[path] = imp
    def grouped(f):
        if p.ac('('):
            while not p.ac(')'): f(); p.ex(';')
        else: f()
    while p.kind() != 'eof':
        ln = p.line()
        if p.ac('type'):
            def td():
                n = p.ident(); types[(pkg, n)] = p.type()
            grouped(td); p.ex(';')
        elif p.ac('const'):
            last, k = [None, None], [0]
            def cd():
                n = p.ident(); t = None
                if p.pk() not in ('=', ';'): t = p.type()
                if p.ac('='): last[0] = p.expr()
                e = last[0]
                values[(pkg, n)] = ('const', pkg, path, ('int', k[0]) if e == ('id', 'iota') else e)
                k[0] += 1
            grouped(cd); p.ex(';')
        elif p.ac('var'):
            def vd():
                n = p.ident(); t = None
                if p.pk() != '=': t = p.type()
                e = p.expr() if p.ac('=') else None
                values[(pkg, n)] = ('var', pkg, path, e, t)
            grouped(vd); p.ex(';')
        elif p.ac('func'):
            recv = p.params()[0] if p.pk() == '(' else None
            n = p.ident(); ps = p.params(); rs = p.results()
            body = p.block(); end = p.t[p.i-1][2]
            p.ac(';')
            funcs.append(dict(pkg=pkg, path=path, recv=recv, name=n, ps=ps, rs=rs, body=body, lines=(ln, end)))
        else: raise SyntaxError('%s:%d %r' % (path, ln, p.t[p.i]))

for f in FILES: parse_file(f)

PTRM, VARIADIC, FUNF = set(), {}, set()
for f in funcs:
    if f['recv'] and f['recv'][1][0] == 'ptr': PTRM.add(f['name'])
    if f['ps'] and f['ps'][-1][1][0] == 'dots':
        VARIADIC[f['name']] = len(f['ps']) - 1
for (pkg, n), t in types.items():
    if t[0] == 'struct':
        for fn, ft, emb in t[1]:
            if ft[0] == 'func': FUNF.add(fn)
PRINT = {('fmt', 'Printf'), ('fmt', 'Println')}
# types of models
MODELS = set()
for (pkg, n), t in types.items():
    ms = {f['name']: f for f in funcs if f['pkg'] == pkg and f['recv'] and f['recv'][1] == ('id', n)}
    def returns(m, fld):
        return m in ms and len(ms[m]['body']) == 1 and ms[m]['body'][0][:2] == ('return', [('sel', ('id', ms[m]['recv'][0]), fld)])
    if t[0] == 'struct' and [f[:2] for f in t[1]] == [('dim', ('id', 'int')), ('nodes', ('slice', ('q', 'query', 'Node')))] \
       and returns('Dim', 'dim') and returns('Nodes', 'nodes'): MODELS.add((pkg, n))
BASIC = {'int', 'string', 'bool', 'byte', 'error'}

# ---------------------------------------------------------------- printing

def cstr(s):
    if any(ord(c) < 32 for c in s):
        parts = re.split(r'(\n)', s)
        if any(ord(c) < 32 and c != '\n' for c in s): raise Unsupported('character')
        r = ' ++ '.join('newline' if x == '\n' else cstr(x) for x in parts if x)
        return '(%s)' % r
    return '"%s"' % s.replace('"', '""')
def clist(l): return '[' + '; '.join(l) + ']'

class T:
    """translation of one function"""
    def __init__(self, pkg, path, fn=None):
        self.pkg, self.imp, self.fn, self.scopes, self.heap = pkg, imports[path], fn, [set()], set()
        self.bmaps = set()
        if fn: self.addr(fn['body']); self.maps(fn['body'])
    def addr(self, x):
        if isinstance(x, (list, tuple)):
            if len(x) == 3 and x[0] == 'un' and x[1] == '&' and x[2][0] == 'id': self.heap.add(x[2][1])
            for y in x: self.addr(y)
    def maps(self, x):
        """the variables that hold maps to bool"""
        if isinstance(x, (list, tuple)):
            if len(x) == 3 and x[0] == 'define' and len(x[1]) == len(x[2]) == 1 and x[2][0][0] == 'call':
                _, f, args, _ = x[2][0]
                t = None
                if f == ('id', 'make'): t = args[0][1]
                elif f[0] == 'id':
                    rs = [g['rs'] for g in funcs if g['pkg'] == self.pkg and g['name'] == f[1] and not g['recv']]
                    if rs and len(rs[0]) == 1: t = rs[0][0][1]
                if t and t[0] == 'map' and t[2] == ('id', 'bool'): self.bmaps.add(x[1][0][1])
            for y in x: self.maps(y)
    def isvar(self, n): return any(n in s for s in self.scopes)
    # types
    def res(self, t):
        """resolved (pkg, name) of a named type, or None"""
        if t[0] == 'id':
            if t[1] in BASIC: return None
            if (self.pkg, t[1]) in types: return (self.pkg, t[1])
        if t[0] == 'q': return (t[1], t[2])
        return None
    def under(self, t):
        r = self.res(t)
        if r is None: return t, self.pkg
        if r == ('strings', 'Builder'): return ('builder',), None
        if r == ('bytes', 'Buffer'): return ('buffer',), None
        if r not in types: raise Unsupported('type %s.%s' % r)
        u = types[r]
        o = T.__new__(T); o.pkg = r[0]
        return o.under(u)
    def zero(self, t):
        r = self.res(t)
        u, up = self.under(t)
        if u[0] == 'id':
            return {'int': 'XInt 0', 'byte': 'XInt 0', 'string': 'XStr ""', 'bool': 'XBool false', 'error': 'XNil'}[u[1]]
        if u == ('slice', ('id', 'byte')): return 'XStr ""'
        if u[0] == 'slice': return 'XLst []'
        if u[0] == 'buffer': return 'XStc "bytes.Buffer" [("buf", XStr "")]'
        if u[0] == 'builder': return 'XStc "strings.Builder" [("buf", XStr "")]'
        if u[0] == 'struct':
            o = T.__new__(T); o.pkg = up
            nm = '%s.%s' % r if r else 'struct'
            return 'XStc %s %s' % (cstr(nm), clist('(%s, %s)' % (cstr(n), o.zero(ft)) for n, ft, _ in u[1]))
        return 'XNil'
    def isslice(self, t):
        try: return self.under(t)[0][0] == 'slice'
        except Unsupported: return False
    def istype(self, e):
        if e[0] == 'type': return e[1]
        if e[0] == 'paren': return self.istype(e[1])
        if e[0] == 'id' and not self.isvar(e[1]) and (e[1] in BASIC or (self.pkg, e[1]) in types): return ('id', e[1])
        if e[0] == 'sel' and e[1][0] == 'id' and not self.isvar(e[1][1]) and e[1][1] in self.imp and (e[1][1], e[2]) in types:
            return ('q', e[1][1], e[2])
        return None
    # expressions
    def x(self, e): return '(%s)' % self.e(e)
    def e(self, e):
        k = e[0]
        if k == 'paren': return self.e(e[1])
        if k == 'int': return 'XInt %d' % e[1]
        if k == 'str': return 'XStr %s' % cstr(e[1])
        if k == 'id':
            n = e[1]
            if self.isvar(n):
                return 'XDeref (XVar %s)' % cstr(n) if n in self.heap else 'XVar %s' % cstr(n)
            if n == 'nil': return 'XNil'
            if n in ('true', 'false'): return 'XBool ' + n
            return self.glob(self.pkg, n)
        if k == 'sel':
            if e[1][0] == 'id' and not self.isvar(e[1][1]) and e[1][1] in self.imp: return self.glob(e[1][1], e[2])
            return 'XSel %s %s' % (self.x(e[1]), cstr(e[2]))
        if k == 'idx' and e[1][0] == 'id' and e[1][1] in self.bmaps:
            return 'XIdxZ %s %s (XBool false)' % (self.x(e[1]), self.x(e[2]))
        if k == 'idx': return 'XIdx %s %s' % (self.x(e[1]), self.x(e[2]))
        if k == 'slc':
            o = lambda a: 'None' if a is None else '(Some %s)' % self.x(a)
            return 'XSlc %s %s %s' % (self.x(e[1]), o(e[2]), o(e[3]))
        if k == 'un':
            if e[1] == '-' and e[2][0] == 'int': return 'XInt (-%d)' % e[2][1]
            if e[1] == '-': return 'XNeg ' + self.x(e[2])
            if e[1] == '!': return 'XNot ' + self.x(e[2])
            if e[1] == '*': return 'XDeref ' + self.x(e[2])
            if e[1] == '&' and e[2][0] == 'id': return 'XVar %s' % cstr(e[2][1])
            if e[1] == '&' and e[2][0] == 'lit': return 'XNew ' + self.x(e[2])
            raise Unsupported('unary ' + e[1])
        if k == 'bin':
            op = {'||': 'OOr', '&&': 'OAnd', '==': 'OEq', '!=': 'ONe', '<': 'OLt', '<=': 'OLe', '>': 'OGt', '>=': 'OGe', '+': 'OAdd', '-': 'OSub', '*': 'OMul'}.get(e[1])
            if not op: raise Unsupported('operator ' + e[1])
            return 'XBin %s %s %s' % (op, self.x(e[2]), self.x(e[3]))
        if k == 'lit': return self.lit(e[1], e[2])
        if k == 'call': return self.call(e)
        if k == 'func': return self.funlit(e[1], e[2], e[3])
        raise Unsupported(k)
    def funlit(self, ps, rs, body):
        if len(body) != 1 or body[0][0] != 'return' or len(body[0][1]) != 1 or len(rs) != 1: raise Unsupported('function literal')
        kinds = {'QVar': 'false', 'QConst': 'true'}
        r = [self.res(t) for _, t in ps]
        if any(x is None or x[0] != 'query' or x[1] not in kinds for x in r): raise Unsupported('parameters of a function literal')
        gen = self.res(rs[0][1]) == ('query', 'QVar')
        if gen and any(x[1] != 'QVar' for x in r): raise Unsupported('generator')
        self.scopes.append(set(n for n, _ in ps))
        b = self.x(body[0][1][0])
        self.scopes.pop()
        if gen: return 'XGen %s %s' % (clist(cstr(n) for n, _ in ps), b)
        return 'XFun %s %s' % (clist('(%s, %s)' % (cstr(n), kinds[x[1]]) for (n, _), x in zip(ps, r)), b)
    def glob(self, pkg, n):
        v = values.get((pkg, n))
        fs = [f for f in funcs if f['pkg'] == pkg and f['name'] == n and not f['recv']]
        if not v and fs: return T(pkg, fs[0]['path']).funlit(fs[0]['ps'], fs[0]['rs'], fs[0]['body'])
        if not v: raise Unsupported('%s.%s' % (pkg, n))
        if v[0] == 'const': return T(v[1], v[2]).e(v[3])
        return 'XGlob %s' % cstr('%s.%s' % (pkg, n))
    def lit(self, t, items, elt=None):
        t = t or elt
        u, up = self.under(t)
        r = self.res(t)
        if u[0] == 'slice':
            o = T.__new__(T); o.__dict__.update(self.__dict__)
            el = u[1]
            if up != self.pkg and el[0] == 'id' and el[1] not in BASIC: el = ('q', up, el[1])
            return 'XLst ' + clist(self.lit(None, a[2], el) if a[0] == 'lit' and a[1] is None else self.e(a) for _, a in items)
        if u[0] == 'struct':
            o = T.__new__(T); o.pkg = up
            d = {}
            for j, (n, a) in enumerate(items): d[n or u[1][j][0]] = a
            def fv(n, ft):
                if n not in d: return o.zero(ft)
                if d[n] == ('id', 'nil') and o.isslice(ft): return o.zero(ft)
                return self.e(d[n])
            return 'XStc %s %s' % (cstr('Model' if r in MODELS else '%s.%s' % r if r else 'struct'),
                                   clist('(%s, %s)' % (cstr(n), fv(n, ft)) for n, ft, _ in u[1]))
        raise Unsupported('literal of %s' % u[0])
    def call(self, e):
        _, f, args, spread = e
        while f[0] == 'paren': f = f[1]
        t = self.istype(f)
        if t: return self.e(args[0])
        if f[0] == 'id' and not self.isvar(f[1]):
            n = f[1]
            if n == 'len': return 'XLen ' + self.x(args[0])
            if n == 'append':
                if spread: return 'XAppS %s %s' % (self.x(args[0]), self.x(args[1]))
                return 'XApp %s %s' % (self.x(args[0]), clist(self.e(a) for a in args[1:]))
            if n == 'make':
                tt = self.istype(args[0]) or args[0][1]
                u, up = self.under(tt)
                if u[0] == 'map': return 'XMap'
                o = T.__new__(T); o.pkg = up
                return 'XMake %s %s' % ('(%s)' % o.zero(u[1]), self.x(args[1]))
            if n in ('copy', 'delete', 'cap'): raise Unsupported(n)
            if n == 'panic': return 'XPrim "panic" %s' % clist(self.e(a) for a in args)
            return 'XCall %s %s' % (cstr('%s.%s' % (self.pkg, n)), self.args(n, args, spread))
        if f[0] == 'sel' and f[1][0] == 'id' and not self.isvar(f[1][1]) and f[1][1] in self.imp:
            pkg, n = f[1][1], f[2]
            if self.imp[pkg].startswith(LOCAL):
                return 'XCall %s %s' % (cstr('%s.%s' % (pkg, n)), self.args(n, args, spread))
            return '%s %s %s' % ('XSys' if pkg in ('os', 'exec') or (pkg, n) in PRINT else 'XPrim', cstr('%s.%s' % (pkg, n)), clist(self.e(a) for a in args))
        if f[0] == 'sel':
            if f[2] in FUNF: return 'XDyn %s %s' % (self.x(f), clist(self.e(a) for a in args))
            return 'XMeth %s %s %s' % (self.x(f[1]), cstr(f[2]), self.args(f[2], args, spread))
        if f[0] == 'id': return 'XDyn %s %s' % (self.x(f), clist(self.e(a) for a in args))
        raise Unsupported('call')
    def args(self, n, args, spread):
        l = [self.e(a) for a in args]
        if n in VARIADIC and not spread:
            k = VARIADIC[n]
            l = l[:k] + ['XLst ' + clist(l[k:])]
        return clist(l)
    # left-hand sides
    def lhs(self, e):
        while e[0] == 'paren': e = e[1]
        if e[0] == 'id':
            if e[1] == '_': return 'LBlank'
            if not self.isvar(e[1]): raise Unsupported('assignment to global')
            return 'LDeref (XVar %s)' % cstr(e[1]) if e[1] in self.heap else 'LVar %s' % cstr(e[1])
        if e[0] == 'sel': return 'LSel (%s) %s' % (self.lhs(e[1]), cstr(e[2]))
        if e[0] == 'idx': return 'LIdx (%s) %s' % (self.lhs(e[1]), self.x(e[2]))
        if e[0] == 'un' and e[1] == '*': return 'LDeref ' + self.x(e[2])
        raise Unsupported('lhs ' + e[0])
    # statements
    def block(self, b, names=()):
        self.scopes.append(set(names))
        r = [self.s(s) for s in b]
        self.scopes.pop()
        return '[\x01' + '\x03'.join(r) + '\x02]' if r else '[]'
    def rhs(self, ls, rs):
        if len(ls) == 2 and len(rs) == 1 and rs[0][0] == 'idx':
            return ['XIdx2 %s %s' % (self.x(rs[0][1]), self.x(rs[0][2]))]
        if len(ls) == 2 and len(rs) == 1 and rs[0][0] == 'assert':
            t = rs[0][2]
            while t[0] == 'ptr': t = t[1]
            return ['XIs %s %s' % (self.x(rs[0][1]), cstr('%s.%s' % (t[1], t[2]) if t[0] == 'q' else '%s.%s' % (self.pkg, t[1])))]
        return [self.e(r) for r in rs]
    def s(self, s):
        k = s[0]
        if k == 'var':
            _, ns, t, es = s
            rs = [self.e(x) for x in es] if es else [self.zero(t)] * len(ns)
            return self.define(ns, rs)
        if k == 'define':
            if any(l[0] != 'id' for l in s[1]): raise SyntaxError(':=')
            return self.define([l[1] for l in s[1]], self.rhs(s[1], s[2]))
        if k == 'assign':
            # nil assigned to a field of slice type
            rs = self.rhs(s[1], s[2])
            if len(s[1]) == 1 and s[2][0] == ('id', 'nil'):
                if s[1][0][0] != 'sel': raise Unsupported('nil assigned')
                ts = {self.isslice(('x',)) if False else self.fieldslice(s[1][0][2])}
                if ts == {True}: rs = ['XLst []']
            return 'SAssign %s %s' % (clist(self.lhs(l) for l in s[1]), clist(rs))
        if k == 'expr':
            c = s[1]
            if c[0] == 'call' and c[1] == ('id', 'delete'):
                return 'SDelete (%s) %s' % (self.lhs(c[2][0]), self.x(c[2][1]))
            if c[0] == 'call' and c[1] == ('id', 'copy'):
                return 'SCopy (%s) %s' % (self.lhs(c[2][0]), self.x(c[2][1]))
            return 'SExpr ' + self.x(c)
        if k == 'if':
            self.scopes.append(set())
            init = clist([self.s(s[1])] if s[1] else [])
            c = self.x(s[2])
            r = 'SIf %s %s %s %s' % (init, c, self.block(s[3]), self.block(s[4]))
            self.scopes.pop()
            return r
        if k == 'for':
            self.scopes.append(set())
            init = clist([self.s(s[1])] if s[1] else [])
            c = self.x(s[2]) if s[2] else '(XBool true)'
            post = clist([self.s(s[3])] if s[3] else [])
            r = 'SFor %s %s %s %s' % (init, c, post, self.block(s[4]))
            self.scopes.pop()
            return r
        if k == 'range':
            _, ls, e, d = s[1]
            if ls and not d: raise Unsupported('range with =')
            ns = [l[1] for l in ls] + ['_'] * (2 - len(ls))
            x = self.x(e)
            return 'SRange %s %s %s %s' % (cstr(ns[0]), cstr(ns[1]), x, self.inner(s[2], [n for n in ns if n != '_']))
        if k == 'switch':
            def has(b, what):
                return isinstance(b, (list, tuple)) and (b[:1] == (what,) or any(has(y, what) for y in b))
            if has(s[2], 'break'): raise Unsupported('break in switch')
            r = '[]'
            for c, b in reversed(s[2]):
                bb = self.block(b)
                if c is None:
                    if r != '[]': raise Unsupported('default not last')
                    r = bb; continue
                conds = [('bin', '==', s[1], x) if s[1] else x for x in c]
                cc = conds[0]
                for y in conds[1:]: cc = ('bin', '||', cc, y)
                r = '[\x01SIf [] %s %s %s\x02]' % (self.x(cc), bb, r)
            return r[2:-2] if r != '[]' else 'SBlock []'
        if k == 'return':
            rt = [t for _, t in self.fn['rs']]
            es = []
            for j, e in enumerate(s[1]):
                if e == ('id', 'nil') and len(rt) == len(s[1]) and self.isslice(rt[j]): es.append(self.zero(rt[j]))
                else: es.append(self.e(e))
            return 'SReturn ' + clist(es)
        if k == 'break': return 'SBreak'
        if k == 'continue': return 'SContinue'
        if k == 'goto': return 'SGoto ' + cstr(s[1])
        if k == 'label': return 'SLabel ' + cstr(s[1])
        if k == 'block': return 'SBlock ' + self.block(s[1])
        if k == 'defer':
            c = s[1]
            if c[0] == 'call' and c[1][0] == 'func' and not c[2]: return 'SDefer ' + self.block(c[1][3])
            if c[0] == 'call' and not c[2]: return 'SDefer ' + clist(['SExpr ' + self.x(c)])
            raise Unsupported('defer')
        raise Unsupported(k)
    def inner(self, b, names):
        self.scopes.append(set(names))
        r = self.block(b)
        self.scopes.pop()
        return r
    def fieldslice(self, f):
        s = set()
        for (pkg, n), t in types.items():
            if t[0] == 'struct':
                for fn, ft, _ in t[1]:
                    if fn == f:
                        o = T.__new__(T); o.pkg = pkg; s.add(o.isslice(ft))
        if len(s) != 1: raise Unsupported('nil assigned to ' + f)
        return s.pop()
    def define(self, ns, rs):
        ls = []
        for n in ns:
            if n == '_': ls.append('LBlank')
            elif n in self.scopes[-1]: ls.append(self.lhs(('id', n)))
            else: ls.append('LNew %s' % cstr(n))
        for j, n in enumerate(ns):
            if n in self.heap and n not in self.scopes[-1]:
                if len(ns) != len(rs): raise Unsupported('address of part of a tuple')
                rs[j] = 'XNew (%s)' % rs[j]
        for n in ns:
            if n != '_': self.scopes[-1].add(n)
        return 'SAssign %s %s' % (clist(ls), clist(rs))
    def func(self):
        f = self.fn
        ps = ([f['recv']] if f['recv'] else []) + f['ps']
        names = ['_' if n is None else n for n, _ in ps]
        rn = [n for n, _ in f['rs']]
        named = bool(rn) and rn[0] is not None
        self.scopes = [set(n for n in names if n != '_') | set(n for n in rn if n)]
        if self.heap & self.scopes[0]: raise Unsupported('address of parameter')
        res = clist('(%s, %s)' % (cstr(n), self.zero(t)) for n, t in f['rs']) if named else '[]'
        body = [self.s(s) for s in f['body']]
        ptr = 'true' if f['recv'] and f['recv'][1][0] == 'ptr' else 'false'
        return names, res, ptr, body

def wrap(s, ind, width=90):
    """break a long line at spaces outside of strings"""
    out, line, instr = [], '', False
    words, cur = [], ''
    for ch in s:
        if ch == '"': instr = not instr
        if ch == ' ' and not instr: words.append(cur); cur = ''
        else: cur += ch
    words.append(cur)
    i = ind
    for w in words:
        if line and len(line) + 1 + len(w) > width - i:
            out.append(' ' * i + line); line, i = w, ind + 4
        else: line = line + ' ' + w if line else w
    out.append(' ' * i + line)
    return '\n'.join(out)

def layout(b, ind):
    """lay out a statement; the marks 1, 2, 3 open, close and separate blocks"""
    out, cur = [], ''
    for ch in b:
        if ch == '\x01': out.append(wrap(cur.strip(), ind)); cur = ''; ind += 2
        elif ch == '\x02': out.append(wrap(cur.strip(), ind)); cur = ''; ind -= 2
        elif ch == '\x03': out.append(wrap(cur.strip() + ';', ind)); cur = ''
        else: cur += ch
    if cur: out.append(wrap(cur.strip(), ind))
    return '\n'.join(x for x in out if x.strip())

def main():
    pr = print
    pr('(* Generated by tools/go2coq.py from the Go sources; do not edit. *)')
    pr('From Verif Require Import GoBase Cnf GoLang.')
    pr('Local Open Scope string_scope.\nLocal Open Scope Z_scope.\nLocal Open Scope list_scope.\n')
    done, skipped = [], []
    for f in funcs:
        rt = f['recv'][1] if f['recv'] else None
        if rt and rt[0] == 'ptr': rt = rt[1]
        key = '.'.join([f['pkg']] + ([rt[1]] if rt else []) + [f['name']])
        nm = 'src_' + key.replace('.', '_')
        try:
            t = T(f['pkg'], f['path'], f)
            names, res, ptr, body = t.func()
        except Unsupported as u:
            skipped.append((key, f, str(u))); continue
        pr('(* %s:%d-%d *)' % (f['path'], f['lines'][0], f['lines'][1]))
        pr('Definition %s : func :=' % nm)
        pr('  mkFunc %s %s %s' % (clist(cstr(n) for n in names), res, ptr))
        pr('  [\n' + ';\n'.join(layout(b, 4) for b in body) + '\n  ].\n')
        done.append((key, nm))
    pr('(* package-level variables *)')
    gl = []
    for (pkg, n), v in values.items():
        if v[0] != 'var': continue
        try:
            t = T(pkg, v[2]); gl.append((pkg + '.' + n, t.e(v[3])))
        except Unsupported as u: skipped.append((pkg + '.' + n, None, str(u)))
    pr('Definition source_globals : list (string * expr) :=\n  [')
    pr(';\n'.join('    (%s, %s)' % (cstr(k), e) for k, e in gl)); pr('  ].\n')
    pr('(* embedded fields *)')
    pr('Definition source_embedded : list (string * list string) :=\n  [')
    em = []
    for (pkg, n), t in types.items():
        if t[0] == 'struct':
            l = [fn for fn, _, e in t[1] if e]
            if l: em.append('    (%s, %s)' % (cstr(pkg + '.' + n), clist(map(cstr, l))))
    pr(';\n'.join(em)); pr('  ].\n')
    pr('Definition source : list (string * func) :=\n  [')
    pr(';\n'.join('    (%s, %s)' % (cstr(k), n) for k, n in done)); pr('  ].\n')
    pr('(* Not translated:')
    for k, f, u in skipped:
        pr('   %s%s: %s' % (k, ' (%s:%d-%d)' % (f['path'], *f['lines']) if f else '', u))
    pr('*)')
main()

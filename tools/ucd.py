"""Print the tables of ucd_prv.c (for Ucd_Model.v) or the general categories of Python's
unicodedata for code points below 65536 (for Ucd_Spec.v), as Coq definitions.
Usage: ucd.py model|spec"""
import re, sys, unicodedata as u
src = open('/repo/include/stc/priv/ucd_prv.c').read()
order = re.findall(r'U8G_(\w+)', re.search(r'enum \{(.*?)\}', src, re.S)[1])[:-1]
def wrap(items):
    out, line = [], ''
    for k, it in enumerate(items):
        s = it + ('; ' if k + 1 < len(items) else '')
        if len(line) + len(s) > 100: out.append(line.rstrip()); line = ''
        line += s
    return '\n   '.join(out + [line])
def coq(name, ranges): return 'Definition %s : list (Z * Z) :=\n  [%s].' % (name, wrap(['(%d, %d)' % r for r in ranges]))
if sys.argv[1] == 'model':
    for name in order:
        m = re.search(r'URange16 %s_range16\[\] = \{(.*?)\n\};' % name, src, re.S)
        lo = src[:m.start()].count('\n') + 1; hi = src[:m.end()].count('\n') + 1
        print('(** ucd_prv.c %d-%d. *)' % (lo, hi))
        print(coq('t_' + name, [(int(a), int(b)) for a, b in re.findall(r'\{\s*(\d+),\s*(\d+)\s*\}', m[1])]))
    print('(** 33-42, 446-470: the groups in the order of the enum. *)')
    print('Definition groups : list (list (Z * Z)) :=\n  [%s].' % wrap(['t_' + n for n in order]))
else:
    for name in [n for n in order if len(n) == 2] + ['Lu', 'Ll']:
        rs = []
        for c in range(65536):
            if u.category(chr(c)) == name:
                if rs and rs[-1][1] == c - 1: rs[-1] = (rs[-1][0], c)
                else: rs.append((c, c))
        print(coq('cat_' + name, rs))

#!/usr/bin/env python3
# Writes the tables of rocq/theories/CaseTable.v: the full (SpecialCasing, language independent)
# upper and lower case mappings of Unicode and the classes used by the final sigma rule.
import unicodedata
N = 0x110000
chars = [c for c in range(N) if not 0xD800 <= c <= 0xDFFF]
def single(f):
    rs, multi = [], []
    pts = []
    for c in chars:
        w = f(chr(c))
        if c == 0x3A3 and f is str.lower: w = '\u03c3'
        if w == chr(c): continue
        if len(w) > 1: multi.append((c, [ord(x) for x in w]))
        else: pts.append((c, ord(w)))
    i = 0
    while i < len(pts):
        c, d = pts[i]
        best = (1, 1)
        for st in (1, 2):
            k = i + 1
            while k < len(pts) and pts[k][0] == c + (k - i) * st and pts[k][1] == d + (k - i) * st: k += 1
            if k - i > best[0]: best = (k - i, st)
        n, st = best
        rs.append((c, c + (n - 1) * st, st, d))
        i += n
    return rs, multi
def ranges(p):
    out = []
    for c in chars:
        if p(chr(c)):
            if out and out[-1][1] == c - 1: out[-1][1] = c
            else: out.append([c, c])
    return out
S = '\u03a3'; F = '\u03c2'
final = lambda s: (s + S).lower()[-1] == F
ign = lambda c: final('a' + c) and not final(c)
cased = lambda c: final(c)
def show(name, ty, items, f, com):
    o = '(* %s *)\nDefinition %s : list (%s) :=\n  [' % (com, name, ty)
    line = ''
    for k, it in enumerate(items):
        s = f(it) + ('; ' if k < len(items) - 1 else '')
        if len(line) + len(s) > 110: o += line.rstrip() + '\n   '; line = ''
        line += s
    return o + line + ']%N.\n'
u, um = single(str.upper); l, lm = single(str.lower)
r4 = lambda t: '(%d, %d, %d, %d)' % t
mm = lambda t: '(%d, [%s])' % (t[0], '; '.join(map(str, t[1])))
r2 = lambda t: '(%d, %d)' % tuple(t)
out = '''(* Generated by tools/casegen.py from the Unicode character database, version %s.
   Rust's str::to_uppercase and str::to_lowercase (func.rs 840, 853, 1168) use these tables of the
   Unicode standard: UnicodeData.txt and SpecialCasing.txt, language independent entries. *)
Require Import List NArith.
Import ListNotations.
''' % unicodedata.unidata_version
out += show('upper_ranges', 'N * N * N * N', u, r4, '(first, last, step, image of first): single character upper case mappings')
out += show('upper_multi', 'N * list N', um, mm, 'upper case mappings to several characters')
out += show('lower_ranges', 'N * N * N * N', l, r4, '(first, last, step, image of first): single character lower case mappings')
out += show('lower_multi', 'N * list N', lm, mm, 'lower case mappings to several characters')
out += show('cased_ranges', 'N * N', ranges(cased), r2, 'Cased and not Case_Ignorable')
out += show('ignorable_ranges', 'N * N', ranges(ign), r2, 'Case_Ignorable')
open('rocq/theories/CaseTable.v', 'w').write(out)
print(len(u), len(um), len(l), len(lm), len(ranges(cased)), len(ranges(ign)))

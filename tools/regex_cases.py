#!/usr/bin/env python3
"""Compares RegexModel with the re module of the python at hand.

Draws patterns and texts, asks re what it does of them, and writes a Coq file
which computes how many of the answers are those of the model, and which are not:

    python3 tools/regex_cases.py 3000 > /tmp/Cases.v
    coqc -Q rocq/theories Verif /tmp/Cases.v
"""
import random
import re
import sys
import warnings

warnings.simplefilter('ignore')

N = int(sys.argv[1]) if len(sys.argv) > 1 else 1000
rng = random.Random(int(sys.argv[2]) if len(sys.argv) > 2 else 0)
ALPHABET = 'aab1 -\n_é'


def char():
    return rng.choice(['a', 'b', '1', ' ', '-', '_', 'é', ']', '}', ',', '{'])


def set_():
    items = ''
    for _ in range(rng.randint(0, 3)):
        items += rng.choice(['a', 'b', 'a-b', '0-9', '\\d', '\\s', '\\w', '\\W', '-', ']', '^', '\\-', '\\n', 'b-a', '\\b', '[', 'é'])
    return '[' + rng.choice(['', '', '^']) + items + ']'


def atom(depth):
    k = rng.randint(0, 13 if depth > 0 else 8)
    if k <= 3:
        return char()
    if k == 4:
        return '.'
    if k == 5:
        return rng.choice(['\\d', '\\D', '\\s', '\\S', '\\w', '\\W', '\\.', '\\-', '\\n', '\\\\', '\\q', '\\(', '\\*'])
    if k == 6:
        return set_()
    if k == 7:
        return rng.choice(['^', '$', '\\b', '\\B'])
    if k == 8:
        return rng.choice(['\\1', '\\2', 'a', 'b'])
    if k <= 10:
        return '(' + alt(depth - 1) + ')'
    if k <= 12:
        return '(?:' + alt(depth - 1) + ')'
    return rng.choice(['(?=', '(?!']) + alt(depth - 1) + ')'


def piece(depth):
    a = atom(depth)
    q = rng.randint(0, 9)
    if q < 5:
        return a
    return a + rng.choice(['*', '+', '?', '*?', '+?', '??', '{2}', '{1,2}', '{,2}', '{1,}', '{0,3}?', '{,}', '{}', '{2,1}', '{a}', '{1', '**', '{1}*'] + ['*', '+', '?', '{1,3}'] * 3)


def seq(depth):
    return ''.join(piece(depth) for _ in range(rng.randint(0, 3)))


def alt(depth):
    return '|'.join(seq(depth) for _ in range(rng.choice([1, 1, 1, 2, 3])))


def text():
    return ''.join(rng.choice(ALPHABET) for _ in range(rng.randint(0, 8)))


def coq_str(s):
    return '[' + '; '.join('%d' % ord(c) for c in s) + ']%N'


def coq_opt(x, f):
    return 'None' if x is None else '(Some %s)' % f(x)


def coq_list(xs, f):
    return '[' + '; '.join(f(x) for x in xs) + ']'


cases = []
while len(cases) < N:
    p, s = alt(2), text()
    if re.search(r'\[.*\\\d|\\\d\d', p, re.S):
        continue  # octal numbers are left out
    try:
        r = re.compile(p)
    except re.error:
        cases.append((p, s, None))
        continue
    if r.groups > 3:
        continue
    m = r.match(s)
    found = None if m is None else (m.end(), [m.group(i) for i in range(1, r.groups + 1)])
    cases.append((p, s, (r.groups, found, r.sub('<>', s), r.split(s), re.sub(re.escape(s), '!', 'x' + s + 'y'))))

print('''From Coq Require Import List NArith Bool.
From Verif Require Import Base LevModel StringsModel RegexModel.
Import ListNotations.
Open Scope nat_scope.
Definition dig (c : N) : bool := ((48 <=? c) && (c <=? 57))%N.
Definition spc (c : N) : bool := ((9 <=? c) && (c <=? 13) || (28 <=? c) && (c <=? 32))%N.
Definition wrd (c : N) : bool := (dig c || (65 <=? c) && (c <=? 90) || (97 <=? c) && (c <=? 122) || (c =? 95) || (c =? 233))%N.
Definition answer := option (nat * option (nat * list (option str)) * str * list (option str) * str).
Definition answers (p s : str) (n : nat) : answer :=
  match parse p, parse (escape s) with
  | Some r, Some e =>
    Some (n, match re_match dig spc wrd N.eqb r s with
             | Some st => Some (length (before st), map (fun k => group k st) (seq 1 n))
             | None => None
             end,
          re_sub dig spc wrd N.eqb r (fun _ => [60; 62]%N) s, re_split dig spc wrd N.eqb r n s,
          re_sub dig spc wrd N.eqb e (fun _ => [33]%N) ([120]%N ++ s ++ [121]%N))
  | _, _ => None
  end.
Definition right (case : str * str * answer) : bool :=
  let '(p, s, a) := case in if eq_dec (answers p s (match a with Some (n, _, _, _, _) => n | None => 0 end)) a then true else false.
Definition cases : list (str * str * answer) := [''')
print(';\n'.join('(%s, %s, %s)' % (coq_str(p), coq_str(s), coq_opt(a, lambda a: '(%d, %s, %s, %s, %s)' % (
    a[0], coq_opt(a[1], lambda m: '(%d, %s)' % (m[0], coq_list(m[1], lambda g: coq_opt(g, coq_str)))), coq_str(a[2]),
    coq_list(a[3], lambda g: coq_opt(g, coq_str)), coq_str(a[4])))) for p, s, a in cases))
print('''].
Definition wrong := map fst (filter (fun ic => negb (right (snd ic))) (combine (seq 0 (length cases)) cases)).
Eval vm_compute in (length (filter (fun c => match snd c with Some _ => true | None => false end) cases), length cases, wrong).''')
if len(sys.argv) > 3:
    for i in map(int, sys.argv[3].split(',')):
        sys.stderr.write(repr(cases[i]) + '\n')

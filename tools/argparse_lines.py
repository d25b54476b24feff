#!/usr/bin/env python3
"""Compare ArgsModel.parse_args with the argparse of the python that runs this.

usage: argparse_lines.py SEED COUNT > T.v; coqc -Q .../theories Verif T.v

Draws COUNT command lines, parses each with argparse in an empty directory (parsers built as in fog/cli/__main__.py:18-52),
and writes a Coq file that prints how many lines there are, on how many the model differs, and the first of these."""
import argparse
import contextlib
import io
import os
import random
import sys
import tempfile
from argparse import ArgumentParser, FileType

STDOUT = sys.stdout


def build():
    parser = ArgumentParser(prog='fog')
    subparsers = parser.add_subparsers(title='actions', dest='action')
    c = subparsers.add_parser('cluster')
    c.add_argument('column')
    c.add_argument('file', type=FileType('r'), default=sys.stdin, nargs='?')
    c.add_argument('-o', '--output', type=FileType('w'), default=sys.stdout)
    c.add_argument('-a', '--algorithm', default='fingerprint_collision', choices=['fingerprint_collision'])
    c.add_argument('-t', '--type', default='toml', choices=['html', 'toml'])
    s = subparsers.add_parser('split')
    s.add_argument('column')
    s.add_argument('file', type=FileType('r'), default=sys.stdin, nargs='?')
    s.add_argument('-o', '--output', type=FileType('w'), default=sys.stdout)
    s.add_argument('-s', '--separator', default='|')
    s.add_argument('-t', '--target-column')
    s.add_argument('-r', '--rename-column')
    t = subparsers.add_parser('transform')
    t.add_argument('column')
    t.add_argument('operations')
    t.add_argument('file', type=FileType('r'), default=sys.stdin, nargs='?')
    t.add_argument('-o', '--output', type=FileType('w'), default=sys.stdout)
    t.add_argument('-t', '--target-column')
    t.add_argument('-a', '--after', action='store_true')
    t.add_argument('--eval', action='store_true')
    h = subparsers.add_parser('help')
    h.add_argument('subcommand')
    return parser


VOCABULARY = [
    'in.csv', 'out.csv', 'a', 'upper', '-', '--', '-s', '-t', '-r', '-o', '-a', '-h', '--help', '--eval', '--after', '--output',
    '--target-column', '--rename-column', '--separator', '--type', '--algorithm', 'html', 'toml', 'fingerprint_collision', '--t',
    '--out=out.csv', '--o', '-oout.csv', '-sx', '-s=', '-s=x', '-s-', '-at', '-ah', '-a=', '-ax', '-a-', '--after=', '--after=x',
    '--eval=', '--e', '--h', '-x', '-xy', '--foo', '--foo=a', '-1', '-1.5', '-.', '-.5', '-1\n', 'a b', '-a b', '-t b', '', '--=x',
    '--=', '-=', '-aot', '-ato', '-aoout.csv', '--ty', '--al', '--r', '--s=|', 'nofile', '-to', 'help', 'split', 'transform',
    'cluster', '--a', '--t=x', '--type=html', '-thtml']
COMMANDS = ['split', 'transform', 'cluster', 'help']


def literal(s):
    return '[%s]' % '; '.join(str(ord(c)) for c in s)


def setting(v):
    if v is None:
        return 'Nothing'
    if v is True or v is False:
        return 'Flag ' + str(v).lower()
    if isinstance(v, str):
        return 'Word ' + literal(v)
    if v == []:
        return 'EmptyList'
    if v is sys.stdin:
        return 'Input None'
    if v is STDOUT:
        return 'Output None'
    return '%s (Some %s)' % ('Input' if v.mode == 'r' else 'Output', literal(v.name))


def case(args):
    for f in os.listdir('.'):
        os.remove(f)
    with open('in.csv', 'w') as f:
        f.write('a')
    with open('out.csv', 'w') as f:
        f.write('precious')
    try:
        with contextlib.redirect_stderr(io.StringIO()):
            namespace = build().parse_args(args)
        result = 'inl [%s]' % '; '.join('(%s, %s)' % (literal(k), setting(v)) for k, v in vars(namespace).items())
    except SystemExit as e:
        result = 'inr ' + ('Usage' if e.code == 2 else 'Help')
    files = []
    for name in sorted(os.listdir('.')):
        with open(name) as f:
            files.append('(%s, %s)' % (literal(name), literal(f.read())))
    return '([%s], ([%s], %s))' % ('; '.join(literal(a) for a in args), '; '.join(files), result)


HEADER = '''From Verif Require Import Base ArgsModel.
From Coq Require Import NArith.
Open Scope N_scope.
Definition cases : list (list (list N) * (files * (namespace + stop))) := [
%s].'''

FOOTER = r'''
Definition start : files := [([105; 110; 46; 99; 115; 118], [97]); ([111; 117; 116; 46; 99; 115; 118], [112; 114; 101; 99; 105; 111; 117; 115])].
Definition same_setting (x y : setting) : bool :=
  match x, y with
  | Nothing, Nothing | EmptyList, EmptyList => true
  | Flag x, Flag y => Bool.eqb x y
  | Word x, Word y => if eq_dec x y then true else false
  | Input x, Input y | Output x, Output y => if eq_dec x y then true else false
  | _, _ => false
  end.
Definition same (r e : files * (namespace + stop)) : bool :=
  forallb (fun kv => match dget (fst r) (fst kv) with Some c => if eq_dec c (snd kv) then true else false | None => false end) (fst e) &&
  Nat.eqb (List.length (fst r)) (List.length (fst e)) &&
  match snd r, snd e with
  | inr Usage, inr Usage | inr Help, inr Help => true
  | inl a, inl b => forallb (fun kv => match dget a (fst kv) with Some x => same_setting x (snd kv) | None => false end) b && Nat.eqb (List.length a) (List.length b)
  | _, _ => false
  end.
Definition digit (c : N) : bool := (48 <=? c) && (c <=? 57).
Definition writable (s : list N) : bool := match s with nil => false | _ => true end.
Definition bad := filter (fun c => negb (same (parse_args digit writable (fst c) start) (snd c))) cases.
Eval vm_compute in (List.length cases, List.length bad, map fst (firstn 3 bad)).'''


def main():
    draw = random.Random(int(sys.argv[1]))
    argparse.ArgumentParser.print_help = lambda self, file=None: None
    cases = []
    with tempfile.TemporaryDirectory() as directory:
        os.chdir(directory)
        for _ in range(int(sys.argv[2])):
            args = [draw.choice(VOCABULARY) for _ in range(draw.randrange(8))]
            if draw.random() < .9:
                args.insert(0, draw.choice(COMMANDS))
            cases.append(case(args))
        os.chdir('/')
    print(HEADER % ';\n'.join(cases))
    print(FOOTER)


if __name__ == '__main__':
    main()

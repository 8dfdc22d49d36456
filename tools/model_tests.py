#!/usr/bin/env python3
"""Generate rocq/theories/ModelTests.v: the repository's own tests, run on the model.

The JSONTestSuite, json.org and round-trip files under /repo/tests are embedded as byte
lists; the unit tests of src/ are transcribed by hand in tools/model_unit.txt, where
[[ python string literal ]] stands for its UTF-8 bytes."""
import os, re, ast
R = '/repo/tests'
OUT = os.path.join(os.path.dirname(__file__), '..', 'rocq', 'theories', 'ModelTests.v')
HERE = os.path.dirname(os.path.abspath(__file__))

def lit(b):
    return '[' + ';'.join(str(x) for x in b) + ']' if b else '[]'

def expr(b):
    if b == b'[' * 100000:
        return 'many 100000 [91]'
    if b == b'[{"":' * 50000 + b'\n':
        return 'many 50000 ' + lit(b'[{"":') + ' ++ [10]'
    return lit(b)

def table(name, files):
    rows = ';\n   '.join('(%s)' % expr(open(f, 'rb').read()) for f in files)
    return 'Definition %s : list (list N) :=\n  [%s].\n' % (name, rows)

def ls(d, pred):
    return [os.path.join(d, f) for f in sorted(os.listdir(d)) if f.endswith('.json') and pred(f)]

suite = R + '/JSONTestSuite'
org = R + '/jsonorg'
rt = R + '/roundtrip'
out = []
out.append('''(** Generated by tools/model_tests.py: the repository's own tests, run on the model.

    These are tests of the model, not proofs of any property: each asks Coq to compute a
    model function on the literal inputs of a test in /repo and to compare the result with
    what that test asserts of the compiled Rust.  No claim of MANIFEST.json rests on them. *)
From Coq Require Import List NArith ZArith Bool.
From Verif Require Import Base Utf8 StrModel ErrorModel ErrorDisplay Tokenizer Parser ValueModel DocModel NumModel ObjectModel.
Import ListNotations.
Local Open Scope N_scope.

Definition is_ok {E A} (r : res E A) : bool := match r with Ok _ => true | _ => false end.
Definition is_err {E A} (r : res E A) : bool := match r with Err _ => true | _ => false end.
Definition no_fault {E A} (r : res E A) : bool := match r with Fault _ => false | _ => true end.
Definition many (n : N) (s : list N) : list N := N.iter n (app s) [].
Definition widths : list pwidth := [W32; W64].
Definition all_widths (f : pwidth -> bool) : bool := forallb f widths.
''')
counts = {}
for p, what in (('y', 'is_ok'), ('n', 'is_err'), ('i', 'no_fault')):
    fs = ls(suite, lambda f: f.startswith(p + '_'))
    counts[p] = len(fs)
    out.append('(** /repo/tests/JSONTestSuite/%s_*.json (%d files), tests/jsontestsuite.rs. *)' % (p, len(fs)))
    out.append(table('suite_' + p, fs))
    out.append('Example JSONTestSuite_%s :\n  forallb (fun s => all_widths (fun pw => %s (validate_json_bytes pw s))) suite_%s = true.\nProof. vm_compute. reflexivity. Qed.\n' % (p, what, p))
for p, what in (('pass', 'is_ok'), ('fail', 'is_err')):
    fs = ls(org, lambda f: f.startswith(p))
    out.append('(** /repo/tests/jsonorg/%s*.json (%d files), tests/jsonorg.rs. *)' % (p, len(fs)))
    out.append(table('org_' + p, fs))
    out.append('''Example jsonorg_%s :
  forallb (fun s => all_widths (fun pw =>
    let c := with_recursion_limit config_strict 19 in
    utf8_valid s && %s (validate_json_bytes_with_config pw s c)
    && %s (validate_json_with_config pw s c)
    && %s (value_from_json_bytes_with_config pw s c)
    && %s (value_from_json_with_config pw s c)
    && %s (document_from_json_bytes_with_config pw None s c)
    && %s (document_from_json_with_config pw None s c))) org_%s = true.
Proof. vm_compute. reflexivity. Qed.
''' % ((p,) + (what,) * 6 + (p,)))
fs = ls(rt, lambda f: True)
out.append('(** /repo/tests/roundtrip/*.json (%d files), tests/roundtrip.rs. *)' % len(fs))
out.append(table('roundtrips', fs))
out.append('''Example roundtrip_suite :
  forallb (fun s => all_widths (fun pw =>
    match value_from_json_bytes pw s, document_from_json_bytes pw None s with
    | Ok v, Ok doc =>
        match to_json pw v, value_from_document doc with
        | Ok out, Ok v' =>
            bytes_eqb out s && match value_eq pw v' v with Ok b => b | _ => false end
        | _, _ => false
        end
    | _, _ => false
    end)) roundtrips = true.
Proof. vm_compute. reflexivity. Qed.
''')
unit = open(os.path.join(HERE, 'model_unit.txt')).read()
unit = re.sub(r"\[\[ (r?'.*?') \]\]", lambda m: lit(ast.literal_eval(m.group(1).strip()).encode()), unit, flags=re.S)
out.append(unit)
open(OUT, 'w').write('\n'.join(out))
print(counts)

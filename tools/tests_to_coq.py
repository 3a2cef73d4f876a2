#!/usr/bin/env python3
"""Transcribes the test data of /repo into Coq data: theories/TestData.v.

usage: tests_to_coq.py REPO OUT
"""
import json, math, os, re, sys

repo, out = sys.argv[1], sys.argv[2]


def rd(p):
    return open(os.path.join(repo, p), encoding="utf-8").read()


class F(str):
    """a JSON number, as written"""


def coqstr(s):
    b = s.encode("utf-8")
    if all(32 <= c < 127 for c in b):
        return '(b_of "%s")' % s.replace('"', '""')
    return "[" + "; ".join(str(c) for c in b) + "]"


def z(n):
    return str(n) if n >= 0 else "(%d)" % n


def coqfloat(f):
    if math.isnan(f):
        return "S754_nan"
    sign = "true" if math.copysign(1.0, f) < 0 else "false"
    if f == 0:
        return "(S754_zero %s)" % sign
    m, e = math.frexp(abs(f))
    return "(S754_finite %s %d %s)" % (sign, int(m * 2**53), z(e - 53))


strings, floats = set(), set()


def val(v, ints):
    """[ints]: YAML integers are int, JSON numbers are float64"""
    if v is None:
        return "VNil"
    if v is True or v is False:
        return "(VBool %s)" % str(v).lower()
    if isinstance(v, F):
        if ints and re.fullmatch(r"-?\d+", v):
            return "(VInt %s)" % z(int(v))
        floats.add(float(v))
        return "(VFloat %s)" % coqfloat(float(v))
    if isinstance(v, str):
        strings.add(v)
        return "(VStr %s)" % coqstr(v)
    if isinstance(v, list):
        return "(VArr [%s])" % "; ".join(val(x, ints) for x in v)
    return "(VObj [%s])" % "; ".join("(%s, %s)" % (coqstr(k), val(x, ints)) for k, x in v.items())


def loads(s):
    return json.loads(s, parse_int=F, parse_float=F)


paths = []
o = []
o.append("(** The project's own test data, transcribed by tools/tests_to_coq.py. *)")
o.append("From Verif Require Import Syntax Value SpecGrammar.")
o.append("Local Open Scope Z_scope.")
o.append("Local Open Scope string_scope.")
o.append("Local Open Scope list_scope.")
o.append("")
# t1
t1 = []
for line in rd("testdata/t1").split("\n"):
    if line == "" or line.startswith("#"):
        continue
    i = line.find(" -> ")
    src, want = (line[:i], line[i + 4:]) if i > 0 else (line, "")
    paths.append(src)
    t1.append((src, want))
o.append("(** testdata/t1: a path, and the text of its program or ! and an error *)")
o.append("Definition t1 : list (bytes * bytes) := [")
o.append(";\n".join("  (%s, %s)" % (coqstr(a), coqstr(b)) for a, b in t1) + "].")

# test_suite.yaml
run_test = rd("mach/run_test.go")


def gomap(name):
    body = re.search(r"var %s = map\[string\]string\{(.*?)\n\}" % name, run_test, re.S).group(1)
    return {k: json.loads('"%s"' % v) for k, v in re.findall(r'^\s*"(\w+)":\s*"((?:[^"\\]|\\.)*)"', body, re.M)}


excl, diff = gomap("exclusions"), gomap("differences")
cases, cur = [], None
for line in rd("testdata/test_suite.yaml").split("\n"):
    m = re.match(r"\s+(?:- )?(id|selector|document|consensus|scalar-consensus): (.*)$", line)
    if not m:
        assert line in ("", "queries:"), line
        continue
    k, v = m.groups()
    if k == "id":
        cur = {"id": v}
        cases.append(cur)
    elif k == "consensus" and v == "NOT_SUPPORTED":
        cur[k] = v
    else:
        cur[k] = loads(v)
o.append("")
o.append("(** what mach/run_test.go wants of a query *)")
o.append("Inductive want : Type :=")
o.append("| WError (msg : bytes)  (* the error *)")
o.append("| WAnyError             (* some error *)")
o.append("| WResult (l : list val) (* these values, in some order *)")
o.append("| WOther (l : list val)  (* values known to differ from the ones in the file *)")
o.append("| WNothing              (* it is compiled and run *)")
o.append("| WParse.               (* it is parsed *)")
o.append("")
o.append("(** testdata/test_suite.yaml, with the exclusions and differences of mach/run_test.go:82-131 *)")
o.append("Definition suite : list (bytes * (bytes * val * want)) := [")
L = []
for c in cases:
    s = c["selector"]
    paths.append(s)
    d = val(c.get("document"), True)
    if c["id"] in excl:
        w = "WError %s" % coqstr(excl[c["id"]])
    elif c.get("consensus") == "NOT_SUPPORTED":
        w = "WParse"
    elif c["id"] in diff:
        w = "WOther [%s]" % "; ".join(val(x, True) for x in loads(diff[c["id"]]))
    elif c.get("consensus") is None:
        w = "WNothing"
    else:
        w = "WResult [%s]" % "; ".join(val(x, True) for x in c["consensus"])
    L.append("  (%s, (%s, %s, %s))" % (coqstr(c["id"]), coqstr(s), d, w))
o.append(";\n".join(L) + "].")

# group1
o.append("")
o.append("(** testdata/group1 *)")
o.append("Definition group1 : list (val * list (bytes * want)) := [")
L = []
for f in sorted(os.listdir(os.path.join(repo, "testdata/group1"))):
    if not f.endswith(".json"):
        continue
    for t in loads(rd("testdata/group1/" + f)):
        cs = []
        for c in t["cases"]:
            if c.get("skip"):
                continue
            e = c.get("expression", "")
            paths.append(e)
            if c.get("error") is not None:
                w = "WAnyError"
            elif c.get("result") is None:
                w = "WNothing"
            else:
                w = "WResult [%s]" % "; ".join(val(x, False) for x in c["result"])
            cs.append("(%s, %s)" % (coqstr(e), w))
        L.append("  (* %s *) (%s, [%s])" % (f, val(t.get("given"), False), ";\n    ".join(cs)))
o.append(";\n".join(L) + "].")

# functions
fns = re.findall(r'^\t\{"((?:[^"\\]|\\.)*)", "((?:[^"\\]|\\.)*)"\},', rd("mach/fns_test.go"), re.M)
o.append("")
o.append("(** mach/fns_test.go:16-50: a call, and its result as JSON *)")
o.append("Definition calls : list (bytes * val) := [")
L = []
for e, w in fns:
    e, w = json.loads('"%s"' % e), loads(json.loads('"%s"' % w))
    paths.append(e)
    for x in re.findall(r"'((?:[^'\\]|\\.)*)'", e):
        strings.add(x.replace("\\\\", "\\"))
    L.append("  (%s, %s)" % (coqstr(e), val(w, False)))
o.append(";\n".join(L) + "].")

# lexer samples
lex = re.findall(r'lexOutput\{"((?:[^"\\]|\\.)*)",\s*\[\]string\{(.*?)\},?\s*\}', rd("paths/lex_test.go"), re.S)
o.append("")
o.append("(** paths/lex_test.go:13-62 *)")
o.append("Definition samples : list (bytes * list bytes) := [")
L = []
for s, ops in lex:
    s = json.loads('"%s"' % s)
    paths.append(s)
    ops = [json.loads('"%s"' % x) for x in re.findall(r'"((?:[^"\\]|\\.)*)"', ops)]
    L.append("  (%s, [%s])" % (coqstr(s), "; ".join(coqstr(x) for x in ops)))
o.append(";\n".join(L) + "].")

# pairs of operands of ==
def goval(x):
    x = x.strip()
    if x == "nothing":
        return "(VErr KFailure)"
    if x == "nil":
        return "VNil"
    if x in ("true", "false"):
        return "(VBool %s)" % x
    if x == "math.NaN()":
        return "(VFloat S754_nan)"
    if x == "-zero":
        return "(VFloat %s)" % coqfloat(-0.0)
    if re.fullmatch(r"-?\d+", x):
        return "(VInt %s)" % z(int(x))
    if re.fullmatch(r"-?\d+\.\d+", x):
        floats.add(float(x))
        return "(VFloat %s)" % coqfloat(float(x))
    if x.startswith('"'):
        strings.add(json.loads(x))
        return "(VStr %s)" % coqstr(json.loads(x))
    m = re.fullmatch(r"\[\]JSON\{(.*)\}", x)
    if m:
        return "(VArr [%s])" % (goval(m.group(1)) if m.group(1) else "")
    if x == "make(map[string]JSON)":
        return "(VObj [])"
    m = re.fullmatch(r"map\[string\]JSON\{(\".*?\"): (.*)\}", x)
    return "(VObj [(%s, %s)])" % (coqstr(json.loads(m.group(1))), goval(m.group(2)))


o.append("")
o.append("(** mach/json_test.go:19-118 *)")
o.append("Definition pairs : list (val * val * bool) := [")
L = []
for a, b, r in re.findall(r"^\t\{args\{(.*?), (.*)\}, (true|false)\}", rd("mach/json_test.go"), re.M):
    L.append("  (%s, %s, %s)" % (goval(a), goval(b), r))
o.append(";\n".join(L) + "].")
npairs = len(L)

# the example of the package
ex = rd("example_test.go")
eps = [json.loads(x) for x in re.findall(r'^\t("\$.*"),$', ex, re.M)]
edoc = loads(re.search(r"var docs = \[\]string\{\s*`(.*?)`", ex, re.S).group(1))
eres = [loads(x) for x in re.findall(r"^\t// \t (.*)$", ex, re.M)]
assert len(eps) == len(eres)
paths.extend(eps)
o.append("")
o.append("(** example_test.go *)")
o.append("Definition example_doc : val := %s." % val(edoc, False))
o.append("Definition example : list (bytes * list val) := [")
o.append(";\n".join("  (%s, [%s])" % (coqstr(a), "; ".join(val(x, False) for x in b)) for a, b in zip(eps, eres)) + "].")

# TestRun
qs = [json.loads(x) for x in re.findall(r'^\t("\$.*"),$', re.search(r"var testQueries = (.*?)\n\}", run_test, re.S).group(1), re.M)]
paths.extend(qs)
o.append("")
o.append("(** testdata/book.json and mach/run_test.go:21-41 *)")
o.append("Definition book : val := %s." % val(loads(rd("testdata/book.json")), False))
o.append("Definition book_queries : list bytes := [")
o.append(";\n".join("  " + coqstr(x) for x in qs) + "].")

# tables for the functions of the library
lits = set()
for p in paths:
    lits.update(re.findall(r"\d+\.\d*(?:[eE][+-]?\d+)?", p))
    strings.update(re.findall(r"'([^'\\]*)'", p))
    strings.update(re.findall(r'"([^"\\]*)"', p))
num = r"[+-]?(\d+\.?\d*|\.\d+)([eE][+-]?\d+)?"
for s in strings:
    if re.fullmatch(num, s):
        lits.add(s)
for s in ["42.5", "-42.5", "-0.0", "0.0", "1.0", "42.0", "42", "-42", "0", "1", "2"]:
    lits.add(s)
floats.update(float(x) for x in lits)
o.append("")
o.append("(** strconv.ParseFloat of the texts of numbers above *)")
o.append("Definition parsed : list (bytes * f64) := [")
o.append(";\n".join("  (%s, %s)" % (coqstr(x), coqfloat(float(x))) for x in sorted(lits)) + "].")


def sprint(f):
    if f == int(f) and abs(f) < 1e21:
        return ("-" if math.copysign(1, f) < 0 and f == 0 else "") + str(int(f))
    return repr(f)


o.append("")
o.append("(** fmt.Sprint of the numbers above *)")
o.append("Definition printed : list (f64 * bytes) := [")
o.append(";\n".join("  (%s, %s)" % (coqfloat(f), coqstr(sprint(f))) for f in sorted(floats, key=lambda f: (f, math.copysign(1, f)))) + "].")
pats = set()
for p in paths:
    pats.update(x.replace("\\/", "/") for x in re.findall(r"=~\s*/((?:[^/\\]|\\.)*)/", p))
pats.discard("incorrect regexp)")
o.append("")
o.append("(** regular expressions above, with the strings above that they match *)")
o.append("Definition matched : list (bytes * list bytes) := [")
o.append(";\n".join("  (%s, [%s])" % (coqstr(p), "; ".join(coqstr(s) for s in sorted(strings) if re.search(p, s))) for p in sorted(pats)) + "].")
o.append("")
o.append("(** the parts of the strings above between white space *)")
o.append("Definition words : list (bytes * list bytes) := [")
o.append(";\n".join("  (%s, [%s])" % (coqstr(s), "; ".join(coqstr(x) for x in re.split(r"\s+", s))) for s in sorted(strings) if re.search(r"\s", s)) + "].")
open(out, "w").write("\n".join(o) + "\n")
print(len(t1), len(cases), npairs, len(eps), len(qs), len(fns), len(lex), len(lits), len(pats), file=sys.stderr)
print(sorted(pats), file=sys.stderr)

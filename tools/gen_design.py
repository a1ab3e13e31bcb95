#!/usr/bin/env python3
"""Rewrite the generated sections of DESIGN.md: modelled parts and findings."""
import re, glob, os
T = '/verif/rocq/theories/'

def comment_before(s, pos):
    """The last comment between the theorem before and [pos]."""
    head = s[:pos]
    q = max([m.end() for m in re.finditer(r'^(?:Theorem|Lemma|Corollary) ', head, re.M)] or [0])
    cs = [c for c in re.findall(r'\(\*\*?(.*?)\*\)', head[q:], re.S) if not c.lstrip().startswith('*')]
    return re.sub(r'\s+', ' ', cs[-1]).strip() if cs else ''

TEXT = {
 'C10_foreach_unique_nan_refuted': 'foreach_unique does not end if the first running instance holds a NaN.',
 'C13_switch_label_check_refuted': 'An unsafe switch section is run although no instance goes to it: the check that some lane is on is missing at the label.',
 'C21_saturating_mul_uint64_refuted': 'A product that does not fit may give one of the top 2^32 values other than the maximum.',
 'C27_dot4add_i8i8packed_sat_refuted': 'Signed 8-bit fallback, -1 * 1: the operands are not sign-extended.',
 'C27_dot2add_i16i16packed_sat_refuted': '(-2^15)^2 + (-2^15)^2 overflows before -1 is added.',
 'C27_dot2add_u16i16packed_sat_refuted': 'The first addition saturates although the whole sum fits.',
 'C33_constant_pointer_refuted': 'Functions that differ in the constness of a pointer parameter get the same symbol, although the types are not equal.',
 'C43_linux_refuted': 'A compiler built for custom Linux and Windows only accepts --target-os=linux.',
 'C56_directory_refuted': 'A file without a dot in a directory with one: the suffix goes into the directory name.',
 'C58_all_equal_negative_refuted': '<-1, 0, 1, 2> shifted right by three is judged equal in all lanes: the quotients are rounded towards zero, the shift rounds down.',
}
finds = {}
for f in sorted(glob.glob(T + '*Props.v')):
    s = open(f).read()
    for m in re.finditer(r'^(?:Theorem|Lemma) (C\d\d)_(\w*refuted\w*)', s, re.M):
        finds.setdefault(m.group(1), []).append((m.group(0).split()[1], comment_before(s, m.start())))
out = []
for c in sorted(finds):
    for n, t in finds[c]:
        out.append(f'* `{n}`: {t if n not in TEXT else TEXT[n] or "(see the theorem)"}')
models = []
for f in sorted(glob.glob(T + '*Model.v')):
    s = open(f).read()
    m = re.match(r'\s*\(\*\*(.*?)\*\)', s, re.S)
    models.append(f'* `{os.path.basename(f)}`: ' + (re.sub(r'\s+', ' ', m.group(1)).strip() if m else ''))
d = open('/verif/DESIGN.md').read()
def put(d, name, text):
    a = d.index(f'<!-- {name} -->'); b = d.index(f'<!-- end {name} -->')
    return d[:a] + f'<!-- {name} -->\n\n' + text + '\n\n' + d[b:]
d = put(d, 'models', '\n'.join(models))
d = put(d, 'findings', '\n'.join(out))
open('/verif/DESIGN.md', 'w').write(d)
print(len(out), 'findings;', len(models), 'models;', sum('see the theorem' in o for o in out), 'without comment')

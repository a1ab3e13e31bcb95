#!/usr/bin/env python3
"""Writes rocq/theories/TargetsTables.v: the tables over ISPCTarget in /repo/src as Coq functions."""
import re
te = open('/repo/src/target_enums.cpp').read(); th = open('/repo/src/target_enums.h').read()
isp = open('/repo/src/ispc.cpp').read(); bi = open('/repo/src/builtins.cpp').read()
def line(src, i): return src.count('\n', 0, i) + 1
def body(src, start):
    i = src.index(start); j = src.index('{', i); d = 0
    for k in range(j, len(src)):
        if src[k] == '{': d += 1
        if src[k] == '}':
            d -= 1
            if d == 0: return src[i:k+1], line(src, i), line(src, k)
enum = re.search(r'enum class ISPCTarget \{(.*?)\};', th, re.S)
names = [n.strip() for n in enum.group(1).split(',') if n.strip()]
out = []; w = out.append
w('(** Tables over the targets.  Written by tools/gen_targets.py from /repo/src/target_enums.h, target_enums.cpp, ispc.cpp and builtins.cpp. *)')
w('From Coq Require Import ZArith List Bool String.\nFrom Verif Require Import DispatchModel.\nImport ListNotations.\nOpen Scope string_scope.\nOpen Scope Z_scope.\n')
w('(** enum class ISPCTarget, target_enums.h %d-%d. *)' % (line(th, enum.start()), line(th, enum.end())))
w('Inductive target :=')
for n in names: w('  | T_' + n)
w('.\nDefinition all_targets : list target := [' + '; '.join('T_'+n for n in names) + '].\n')
# ParseISPCTarget
b, l0, l1 = body(te, 'ISPCTarget ParseISPCTarget(')
w('(** ParseISPCTarget, target_enums.cpp %d-%d: the comparisons in order; the flag marks those compiled only with LLVM 22 and later. *)' % (l0, l1))
w('Definition parse_table : list (string * bool * target) :=\n  [')
new = False; rows = []
for m in re.finditer(r'(#if ISPC_LLVM_VERSION >= ISPC_LLVM_22_0)|(#endif)|if \((target == .*?)\) \{\s*return ISPCTarget::(\w+);', b, re.S):
    if m.group(1): new = True
    elif m.group(2): new = False
    else:
        for s in re.findall(r'target == "([^"]*)"', m.group(3)): rows.append('("%s", %s, T_%s)' % (s, 'true' if new else 'false', m.group(4)))
w('   ' + ';\n   '.join(rows) + '].\n')
def switch(b):
    """[(cases, action text)] of the switch in b, ignoring #else branches."""
    b = re.sub(r'#else.*?#endif[^\n]*', '', b, flags=re.S); b = re.sub(r'#if[^\n]*|#endif[^\n]*', '', b)
    b = b[b.index('switch'):]; r = []; cur = []; pos = 0
    parts = re.split(r'((?:case ISPCTarget::\w+|default):)', b)
    for k in range(1, len(parts), 2):
        cur.append(parts[k].replace('case ISPCTarget::', '').rstrip(':'))
        act = re.sub(r'//[^\n]*', '', parts[k+1]).strip()
        if act: r.append((cur, act)); cur = []
    return r
# ISPCTargetToString
b, l0, l1 = body(te, 'std::string ISPCTargetToString(')
w('(** ISPCTargetToString, target_enums.cpp %d-%d; None: error exit. *)' % (l0, l1))
w('Definition to_string (t : target) : option string :=\n  match t with')
for cs, a in switch(b):
    m = re.match(r'return "([^"]*)"', a)
    w('  | ' + ' | '.join('T_'+c for c in cs) + ' => ' + ('Some "%s"' % m.group(1) if m else 'None'))
w('  end.\n')
# predicates
for f, d in [('X86', 'is_x86'), ('ApxCapable', 'is_apx_capable'), ('Neon', 'is_neon'), ('RiscV', 'is_riscv'), ('Wasm', 'is_wasm'), ('Gen', 'is_gen'), ('Generic', 'is_generic'), ('VSX', 'is_vsx')]:
    b, l0, l1 = body(te, 'bool ISPCTargetIs%s(' % f)
    w('(** ISPCTargetIs%s, target_enums.cpp %d-%d. *)' % (f, l0, l1))
    w('Definition %s (t : target) : bool :=\n  match t with' % d)
    for cs, a in switch(b):
        if cs == ['default']: w('  | _ => false')
        else: w('  | ' + ' | '.join('T_'+c for c in cs) + ' => true')
    w('  end.\n')
# TargetToISA
x86 = ['SSE2','SSE41','SSE42','AVX','AVX2','AVX2VNNI','SKX_AVX512','ICL_AVX512','SPR_AVX512','GNR_AVX512','NVL_AVX10_2','DMR_AVX10_2']
others = ['NEON','VSX','RV64GCV','WASM','XELP','XEHPG','XEHPC','XELPG','XE2HPG','XE2LPG']
ih = open('/repo/src/ispc.h').read(); i = ih.index('    enum ISA {')
w('(** Target::ISA, ispc.h %d-%d, in a build with all of ISPC_ARM_ENABLED, ISPC_PPC64_ENABLED, ISPC_RISCV_ENABLED, ISPC_WASM_ENABLED\n    and ISPC_XE_ENABLED; the first ones are those of DispatchModel.v. *)' % (line(ih, i), line(ih, ih.index('NUM_ISAS', i))))
w('Inductive tisa := X (i : isa) | ' + ' | '.join(others) + ' | NUM_ISAS.')
def isa(s): return 'X ' + s if s in x86 else s
b, l0, l1 = body(isp, 'Target::ISA Target::TargetToISA(')
w('(** Target::TargetToISA, ispc.cpp %d-%d; None: fatal error. *)' % (l0, l1))
w('Definition target_to_isa (t : target) : option tisa :=\n  match t with')
for cs, a in switch(b):
    m = re.match(r'return Target::ISA::(\w+);', a)
    w('  | ' + ' | '.join('T_'+c for c in cs) + ' => ' + ('Some (%s)' % isa(m.group(1)) if m else 'None'))
w('  end.\n')
# ISAToString
for fn, d in [('ISAToString', 'isa_to_string')]:
    b, l0, l1 = body(isp, 'const char *Target::%s(' % fn)
    w('(** Target::%s, ispc.cpp %d-%d; None: fatal error. *)' % (fn, l0, l1))
    w('Definition %s (i : tisa) : option string :=\n  match i with' % d)
    b2 = re.sub(r'#if[^\n]*|#endif[^\n]*', '', b)
    cur = []
    for m in re.finditer(r'case Target::(\w+):|return "([^"]+)";', b2):
        if m.group(1): cur.append(m.group(1))
        else:
            w('  | ' + ' | '.join(isa(c) for c in cur) + ' => Some "%s"' % m.group(2)); cur = []
    w('  | _ => None\n  end.\n')
# constructor
i = isp.index('switch (m_ispc_target) {'); b, l0, l1 = body(isp[i:], 'switch (m_ispc_target) {'); b = re.sub(r'#if ISPC_LLVM_VERSION < ISPC_LLVM_22_0.*?#endif', '', b, flags=re.S); off = line(isp, i) - 1
w('(** The gang size, the bits of a mask element, whether masking is free (on which architectures) and the instruction set the\n    constructor of Target sets, ispc.cpp %d-%d. *)' % (l0+off, l1+off))
w('Record attributes := { a_isa : option tisa; vectorWidth : Z; maskBitCount : Z; maskingIsFree : bool; nativeVectorWidth : Z; dataTypeWidth : Z }.')
w('Definition constructed (t : target) (aarch64 : bool) : option attributes :=\n  match t with')
for cs, a in switch(b):
    if 'unsupported_target = true' in a:
        w('  | ' + ' | '.join('T_'+c for c in cs) + ' => None'); continue
    g = lambda f: re.search(r'm_%s = ([^;]*);' % f, a)
    free = {'true': 'true', 'false': 'false', '(arch == Arch::aarch64)': 'aarch64'}[g('maskingIsFree').group(1)]
    for c in cs:
        im = g('isa'); iv = 'None'
        if im:
            e = ' '.join(im.group(1).split())
            m = re.match(r'\((.*)\) \? Target::(\w+) : Target::(\w+)$', e)
            if m: iv = m.group(2) if ('ISPCTarget::%s)' % c in m.group(1)+')' or 'ISPCTarget::%s ' % c in m.group(1)) else m.group(3)
            else: iv = re.match(r'Target::(\w+)$', e).group(1)
            iv = 'Some (%s)' % isa(iv)
        w('  | T_%s => Some {| a_isa := %s; vectorWidth := %s; maskBitCount := %s; maskingIsFree := %s; nativeVectorWidth := %s; dataTypeWidth := %s |}' %
          (c, iv, g('vectorWidth').group(1), g('maskBitCount').group(1), free, g('nativeVectorWidth').group(1), g('dataTypeWidth').group(1)))
w('  end.\n')
# parents
i = bi.index('targetParentMap = {'); j = bi.index('};', i)
m = re.sub(r'/\*.*?\*/', '', bi[i:j], flags=re.S)
w('(** targetParentMap and GetParentTarget, builtins.cpp %d-%d; the flag marks entries compiled only with LLVM 22 and later. *)' % (line(bi, i), line(bi, bi.index('// Check if the module has used', j)) - 2))
w('Definition parent_table : list (target * bool * target) :=\n  [')
new = False; rows = []
for x in re.finditer(r'(#if ISPC_LLVM_VERSION >= ISPC_LLVM_22_0)|(#endif)|\{ISPCTarget::(\w+), ISPCTarget::(\w+)\}', m):
    if x.group(1): new = True
    elif x.group(2): new = False
    else: rows.append('(T_%s, %s, T_%s)' % (x.group(3), 'true' if new else 'false', x.group(4)))
w('   ' + ';\n   '.join(rows) + '].')
open('/verif/rocq/theories/TargetsTables.v', 'w').write('\n'.join(out) + '\n')

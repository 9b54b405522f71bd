#!/usr/bin/env python3
"""Transcribe the numeric tables of /repo/src/colorimetry into MColorTab.v.

Every table becomes a list of integers together with the number of decimals
they share, so that entry m with e decimals is the literal m * 10^-e."""
import re
from decimal import Decimal
S = '/repo/src/colorimetry/'
NUM = r'[-+]?[0-9]+\.?[0-9]*(?:[eE][-+]?[0-9]+)?'

def strip(t):
    return re.sub(r'/\*.*?\*/', '', t, flags=re.S)

def section(f, name):
    t = open(S + f).read()
    i = t.index(name)
    j = t.index('\n\t};', i) if f == 'observers.c' and '10_deg' in name else t.index('\n};', i)
    a = t.count('\n', 0, i) + 1
    b = t.count('\n', 0, j) + 2
    body = t[i:j]
    body = body[body.index('{'):]
    return strip(body), a, b

def scale(nums):
    ds = [Decimal(n) for n in nums]
    e = max(0, max(-d.normalize().as_tuple().exponent for d in ds))
    return [int(d.scaleb(e)) for d in ds], e

def rows(nums, k):
    return [nums[i:i + k] for i in range(0, len(nums), k)]

out = []
def emit(name, f, a, b, what, nums, k, cols=None):
    """cols: scale each column by itself"""
    r = rows(nums, k)
    assert all(len(x) == k for x in r), name
    out.append(f'(** {what}, src/colorimetry/{f}:{a}-{b} *)')
    if cols:
        sc = [scale([x[c] for x in r]) for c in range(k)]
        vals = [[sc[c][0][i] for c in range(k)] for i in range(len(r))]
        es = [s[1] for s in sc]
    else:
        flat, e = scale(nums)
        vals = rows(flat, k); es = [e]
    pr = lambda z: f'({z})' if z < 0 else str(z)
    ty = ' * '.join(['Z'] * k) if k <= 3 else 'list Z'
    if k == 1:
        line = '; '.join(pr(v[0]) for v in vals)
    elif k <= 3:
        line = ';\n   '.join('(' + ', '.join(pr(z) for z in v) + ')' for v in vals)
    else:
        line = ';\n   '.join('[' + '; '.join(pr(z) for z in v) + ']' for v in vals)
    out.append(f'Definition {name} : list ({ty}) :=\n  [{line}]%Z.')
    if cols:
        for c, e in enumerate(es):
            out.append(f'Definition {name}_e{c} : Z := {e}%Z.')
    else:
        out.append(f'Definition {name}_e : Z := {es[0]}%Z.')
    out.append('')

# observers
for name, n in (('obs2', 'zsl_clr_obs_2_deg_data = '), ('obs10', 'zsl_clr_obs_10_deg_data = ')):
    t, a, b = section('observers.c', n)
    t = t[t.index('.data'):]
    nums = re.findall(NUM, t)
    assert len(nums) == 95 * 3, (name, len(nums))
    emit(name + '_tab', 'observers.c', a, b, 'colour matching functions, 360 nm to 830 nm in steps of 5 nm', nums, 3)
# luminous efficiency
for name, n in (('photopic', 'zsl_clr_conv_lef_cie88_photopic_5nm = '), ('scotopic', 'zsl_clr_conv_lef_cie51_scotopic_5nm = ')):
    t, a, b = section('lumeff.c', n)
    nums = re.findall(r'\.nm = (\d+), \.value = (' + NUM + ')', t)
    assert len(nums) == 81
    emit(name + '_tab', 'lumeff.c', a, b, 'luminous efficiency (nm, value)', [x for p in nums for x in p], 2, cols=True)
# illuminants
t, a, b = section('illuminants.c', 'zsl_clr_illum_list[] = ')
ill = ['A', 'B', 'C', 'D50', 'D55', 'D65', 'E', 'ICC']
got = re.findall(r'\.illuminant = ZSL_CLR_ILLUM_(\w+),\s*\.observer = ZSL_CLR_OBS_(\w+),', t)
xyz = re.findall(r'\.xyz_x = (' + NUM + r'),\s*\.xyz_y = (' + NUM + r'),\s*\.xyz_z = (' + NUM + ')', t)
assert len(got) == len(xyz) == 8
emit('illum_tab', 'illuminants.c', a, b, 'white points', [x for p in xyz for x in p], 3)
out.append(f'(** their identifiers, (illuminant, observer), src/colorimetry/illuminants.c:{a}-{b} *)')
out.append('Definition illum_ids : list (Z * Z) :=\n  [' + '; '.join(f"({ill.index(i)}, {['2_DEG','10_DEG'].index(o)})" for i, o in got) + ']%Z.')
out.append('')
# rgb matrices
t, a, b = section('rgbccms.c', 'zsl_clr_rgb_ccm_list[] = ')
ms = re.findall(r'\.data = \(zsl_real_t\[\]\) \{(.*?)\}', t, flags=re.S)
assert len(ms) == 13
nums = [x for m in ms for x in re.findall(NUM, m)]
emit('ccm_tab', 'rgbccms.c', a, b, 'XYZ to RGB matrices, row by row', nums, 9)
# Ohno
t, a, b = section('conv.c', 'zsl_clr_conv_xyy_cct_ohno_2011_data[7][7] = ')
nums = re.findall(NUM, t); assert len(nums) == 49
emit('ohno2011_tab', 'conv.c', a, b, 'polynomial coefficients of Ohno 2011', nums, 7)
t, a, b = section('conv.c', 'zsl_clr_conv_xyy_cct_ohno_2014_data[7] = ')
nums = re.findall(NUM, t); assert len(nums) == 7
emit('ohno2014_tab', 'conv.c', a, b, 'polynomial coefficients of Ohno 2014', nums, 1)
t, a, b = section('conv.c', 'zsl_clr_conv_ct_uv_ohno_2014_data[304][3] = ')
nums = re.findall(NUM, t); assert len(nums) == 304 * 3
emit('ct_uv_tab', 'conv.c', a, b, 'colour temperature to (u, v)', nums, 3, cols=True)

print('''(** The numeric tables of src/colorimetry, generated from its text by
    tools/tables.py.  Entry m of a table with e decimals is m * 10^-e. *)
From Coq Require Import List ZArith.
Import ListNotations.
''')
print('\n'.join(out))

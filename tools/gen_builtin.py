#!/usr/bin/env python3
"""Transcribes /repo/src/builtin_table.c into rocq/theories/BuiltinTables.v."""
import re
src = open('/repo/src/builtin_table.c').read().split('\n')
out = ['(** * Model of src/builtin_table.c',
 '',
 '    Transcribed row by row (tools/gen_builtin.py).  [c_ucn 0xNNNN] stands for the',
 '    universal character name \\uNNNN inside a C string literal, which the compiler',
 '    stores in the execution character set, UTF-8. *)', '',
 'From Verif Require Import Base Table.', '',
 '(** A universal character name in a C string literal (C11 6.4.3, 5.2.1): its UTF-8',
 '    encoding (only code points below 0x10000 occur in src/builtin_table.c). *)',
 'Definition c_ucn (cp : N) : str :=',
 '  (if cp <? 0x80 then [Nb cp]',
 '   else if cp <? 0x800 then [Nb (0xC0 + cp / 64); Nb (0x80 + cp mod 64)]',
 '   else [Nb (0xE0 + cp / 4096); Nb (0x80 + cp / 64 mod 64); Nb (0x80 + cp mod 64)])%N.', '',
 'Definition R (key : N) (data : str) : row := mkRow key (Some data).', '']
i = 0
while i < len(src):
    m = re.match(r'static table_row_t builtin_(\w+)_rows\[(\d+)\] = \{', src[i])
    if m:
        name, n = m.group(1), int(m.group(2))
        start = i + 1
        rows = []
        i += 1
        while src[i] != '};':
            r = re.match(r'    \{ \.key  = (0x[0-9a-f]+), \.data = "(.*)" \},$', src[i])
            key, data = r.group(1), r.group(2)
            u = re.fullmatch(r'\\u([0-9A-F]{4})', data)
            if u:
                d = '(c_ucn 0x%s)' % u.group(1)
            else:
                d2 = data.replace('\\\\', '\x00').replace('\\"', '"')
                assert '\\' not in d2, data
                d2 = d2.replace('\x00', '\\')
                d = '(bs "%s")' % d2.replace('"', '""')
            rows.append('  R %s %s' % (key, d))
            i += 1
        assert len(rows) == n
        out.append('(** src/builtin_table.c:%d-%d [builtin_%s_rows] *)' % (start, i + 1, name))
        out.append('Definition builtin_%s_rows : list row := [' % name)
        out.append(';\n'.join(rows))
        out.append(']%N.')
        out.append('')
        j = i
        while not src[j].startswith('static table_t'): j += 1
        f = {}
        k = j + 1
        while src[k] != '};':
            mm = re.match(r'\s+\.(\w+)\s+= (.*),', src[k]); f[mm.group(1)] = mm.group(2); k += 1
        assert int(f['length']) == n == int(f['used']) and f['use_hash'] == '0' and f['builtin'] == '1'
        dflt = 'None' if f['default_translation'] == 'NULL' else '(Some (bs %s))' % f['default_translation']
        out.append('(** src/builtin_table.c:%d-%d [builtin_%s_table] *)' % (j + 1, k + 1, name))
        out.append('Definition builtin_%s_table : table :=' % name)
        out.append('  mkTable builtin_%s_rows %s %s %s %s false true %s.' % (name, f['used'], f['max_data_length'], dflt, f['overwrites'], f['max_key']))
        out.append('')
        l = k
        while not src[l].startswith('table_t *load'): l += 1
        assert src[l+2].strip() == 'return table_resize(&builtin_%s_table, 256, 1);' % name
        out.append('(** src/builtin_table.c:%d-%d [load_builtin_%s_table] *)' % (l + 1, l + 4, name))
        out.append('Definition load_builtin_%s_table : table :=' % name)
        out.append('  table_resize builtin_%s_table 256 true.' % name)
        out.append('')
        i = k
    i += 1
open('/verif/rocq/theories/BuiltinTables.v', 'w').write('\n'.join(out))

import re
def tabs(path,names):
    s=open(path).read()
    out=[]
    for n in names:
        m=re.search(r'static const \w+ '+n+r'\[\d*\] =\s*\{(.*?)\}',s,re.S)
        line=s[:m.start()].count('\n')+1
        end=s[:m.end()].count('\n')+1
        v=[int(x) for x in re.findall(r'-?\d+',m.group(1))]
        out.append((n,v,line,end))
    return out
def show(path,names):
    r=''
    for n,v,a,b in tabs(path,names):
        r+='(** %s:%d-%d *)\nDefinition %s : list Z :=\n  ['%(path.replace('/repo/',''),a,b,n)
        lines=[]
        for i in range(0,len(v),20):
            lines.append('; '.join(str(x) if x>=0 else '(%d)'%x for x in v[i:i+20]))
        r+=';\n   '.join(lines)+']%Z.\n\n'
    return r
L='/repo/src/config_file_lex.c';Y='/repo/src/config_file_yacc.c'
lt=show(L,['yy_accept','yy_ec','yy_meta','yy_base','yy_def','yy_nxt','yy_chk'])
yt=show(Y,['yytranslate','yypact','yydefact','yypgoto','yydefgoto','yytable','yycheck','yyr1','yyr2'])
head='''(** * The tables of the generated scanner and parser

    src/config_file_lex.c is flex's output for src/config_file_lex.l,
    src/config_file_yacc.c is bison's for src/config_file_yacc.y; both are part of the
    repository.  The tables below are copied from them by tools/gen_parser_tables.py. *)

From Verif Require Import Base.

'''
open('/verif/rocq/theories/ParserTables.v','w').write(head+'(** ** The scanner *)\n\n'+lt+'(** ** The parser *)\n\n'+yt.rstrip()+'\n')

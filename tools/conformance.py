#!/usr/bin/env python3
"""Extracts the expectations of the crate's own unit tests (subtest_eval_xpath / subtest_xpath tables in
/repo/src) and writes a Coq file that evaluates the model on each of them and lists the disagreements.
Usage: conformance.py OUT.v   (then coqc -Q /verif/rocq/theories Verif OUT.v).  Not part of the build."""
import re,sys,glob
tok=re.compile(r'r#"(.*?)"#|"((?:\\.|[^"\\])*)"',re.S)
def unesc(m):
    if m.group(1) is not None: return m.group(1)
    s=m.group(2); s=re.sub(r'\\\n\s*','',s)
    return s.replace('\\n','\n').replace('\\t','\t').replace('\\"','"').replace('\\\\','\\').replace("\\r","\r")
def compress(s): return ''.join(x.lstrip() for x in s.split('\n'))
def strip_comments(t):
    out=[];i=0
    while i<len(t):
        m=tok.match(t,i)
        if m: out.append(m.group(0)); i=m.end(); continue
        if t.startswith('//',i):
            j=t.find('\n',i); i=j if j>=0 else len(t); continue
        if t.startswith("'\"'",i): out.append("'\"'"); i+=3; continue
        out.append(t[i]); i+=1
    return ''.join(out)
cases=[]
for f in sorted(glob.glob('/repo/src/**/*.rs',recursive=True)):
    t=strip_comments(open(f).read())
    k=t.find('#[cfg(test)]')
    if k<0: continue
    t=t[k:]
    for fn in re.split(r'#\[test\]',t)[1:]:
        xmls={}
        for m in re.finditer(r'let (\w+)\s*=\s*(compress_spaces\()?',fn):
            mm=tok.match(fn,m.end())
            if mm:
                v=unesc(mm); xmls[m.group(1)]=compress(v) if m.group(2) else v
        for m in re.finditer(r'(subtest_eval_xpath|subtest_xpath)\(\s*("[^"]*")\s*,\s*&?(\w+)\s*,\s*(?:(true|false)\s*,\s*)?&\[',fn):
            xml=xmls.get(m.group(3))
            if xml is None: print('no xml',f,m.group(2)); continue
            i=m.end(); strs=[]
            while True:
                mt=re.compile(r'[\s(),]*').match(fn,i); i=mt.end()
                if fn[i]==']': break
                mm=tok.match(fn,i)
                if not mm: print('parse?',f,fn[i:i+40]); break
                strs.append(unesc(mm)); i=mm.end()
            assert len(strs)%2==0,(f,m.group(2))
            for a,b in zip(strs[::2],strs[1::2]):
                cases.append((m.group(1),m.group(4),xml,a,b,f))
def q(s): return '['+';'.join(str(ord(c)) for c in s)+']%N'
o=open(sys.argv[1],'w')
o.write('''From Verif Require Import Str Sax Dom Axes Lexer FuncTable Parser Num Item Func Types Eval.
Require Import List String ZArith Ascii. Import ListNotations. Open Scope nat_scope.
Fixpoint show (l : list N) : string := match l with [] => EmptyString | c :: r => String (ascii_of_N c) (show r) end.
Definition ename (e : errkind) : list N := lit match e with CantOccur => "Can't occur" | Unimplemented => "Unimplemented" | XmlSyntaxError => "XML Syntax Error" | XPathSyntaxError => "Syntax Error in XPath" | StaticError => "Static Error" | DynamicError => "Dynamic Error" | TypeError => "Type Error" end.
Definition base (h : heap) : nat := match get_first_node 2000 h 0 (lit "//*[@base=""base""]") with Ok (Some n) => n | _ => 0 end.
Definition run (kind : nat) (xml xp : list N) : list N :=
 match new_document xml with Ok h =>
  match kind with
  | 0 => match eval_xpath 2000 h (base h) xp with Ok v => show_seq h v | Err e => ename e | Panic => lit "PANIC" | Fuel => lit "FUEL" end
  | S k => match each_node 2000 h (base h) xp (fun a n => a ++ (match k with 0 => n_value (Dom.get h n) | _ => match attribute_value h n (lit "img") with Some v => v | None => [] end end)) [] with Ok v => v | Err e => ename e | Panic => lit "PANIC" | Fuel => lit "FUEL" end
  end
 | _ => lit "NODOC" end.
Definition cases : list (nat * list N * list N * list N) := [
''')
L=[]
for (k,cv,xml,a,b,f) in cases:
    kind=0 if k=='subtest_eval_xpath' else (1 if cv=='true' else 2)
    L.append('(%d%%nat, %s, %s, %s)'%(kind,q(xml),q(a),q(b)))
o.write(';\n'.join(L)+'''].
Definition bad := filter (fun c => match c with (k,x,p,g) => negb (str_eqb (run k x p) g) end) cases.
Eval vm_compute in (List.length cases, List.length bad).
Eval vm_compute in (map (fun c => match c with (k,x,p,g) => (k, show p, show g, show (run k x p)) end) bad).
''')
print(len(cases),'cases')

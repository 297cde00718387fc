#!/usr/bin/env python3
"""Run the model on the inputs of /repo/tests and compare its output and its
messages with what those tests expect (a check of the model's fidelity, not a
proof). Usage: conformance.py WORKDIR test-file... ; needs a built tree.
Tests whose input is not a plain literal are left out."""
import re,sys,os,subprocess,json
from concurrent.futures import ThreadPoolExecutor
TH='/verif/rocq/theories'
def unesc(s):
    return s.encode('latin1','backslashreplace').decode('unicode_escape').encode('latin1') if False else _un(s)
def _un(s):
    out=bytearray();b=s.encode('utf8');i=0
    while i<len(b):
        c=b[i]
        if c==92:
            i+=1;d=chr(b[i])
            if d in 'nrtabfv0"\\\'?':
                if d=='0' or d in '1234567':
                    j=i
                    while j<len(b) and j<i+3 and chr(b[j]) in '01234567': j+=1
                    out.append(int(b[i:j],8));i=j;continue
                out+={'n':b'\n','r':b'\r','t':b'\t','a':b'\a','b':b'\b','f':b'\f','v':b'\v','"':b'"','\\':b'\\',"'":b"'",'?':b'?'}[d];i+=1;continue
            if d=='x':
                j=i+1
                while j<len(b) and chr(b[j]) in '0123456789abcdefABCDEF': j+=1
                out.append(int(b[i+1:j],16)&255);i=j;continue
            if d in '1234567':
                j=i
                while j<len(b) and j<i+3 and chr(b[j]) in '01234567': j+=1
                out.append(int(b[i:j],8));i=j;continue
            out.append(b[i]);i+=1
        else: out.append(c);i+=1
    return bytes(out)
LIT=r'"((?:[^"\\]|\\.)*)"'
def literals(t):
    """the value of a concatenation of literals, or None"""
    t=re.sub(r'^\s*//[^\n]*$','',t,flags=re.M)
    rest=re.sub(LIT,'',t,flags=re.S)
    if re.sub(r'[\s+<]|std::string\(\)','',rest): return None
    return b''.join(_un(m) for m in re.findall(LIT,t,flags=re.S))
def sections(path):
    s=re.sub(r'^\s*//[^\n]*$','',open(path,encoding='utf8').read(),flags=re.M)
    for b in re.split(r'(?:CATCH_START_SECTION|CATCH_TEST_CASE)\(',s)[1:]:
        e=b.find('CATCH_END_SECTION()')
        if e>0: b=b[:e]
        title=re.match(r'\s*'+LIT,b)
        title=title.group(1) if title else '?'
        # sub-tests: a new stringstream each
        parts=re.split(r'std::stringstream ss;',b)[1:]
        for i,p in enumerate(parts): yield title+(' #%d'%i if len(parts)>1 else ''),p
def tests(path):
    for title,b in sections(path):
        m=re.search(r'\bss\s*((?:<<\s*(?:'+LIT+r'|[^;"]*?)\s*)+);',b,flags=re.S)
        if not m: continue
        src=literals(m.group(1))
        if src is None: continue
        if 'c.compile(' not in b: continue
        runs=[]
        for o in re.finditer(r'CATCH_REQUIRE\((?:assembler_out|out)\.str\(\)\s*==(.*?)\);',b,flags=re.S):
            t=o.group(1)
            t=re.sub(r'\+\s*csspp_test::get_close_comment\(\)','',t)
            e=literals(t)
            if e is None: continue
            pre=b[:o.start()]
            k=re.findall(r'output_mode_t::(COMPACT|COMPRESSED|EXPANDED|TIDY)',pre)
            runs.append((k[-1] if k else 'COMPRESSED',e))
        errs=[]
        for o in re.finditer(r'VERIFY_ERRORS\((.*?)\);\s*\n',b,flags=re.S):
            e=literals(o.group(1).replace(');',''))
            if e is None: errs=None;break
            errs.append(e)
        yield title,src,runs,errs,('compile(true)' in b),('empty_on_undefined' in b)
def zl(b): return '['+';'.join(str(x) for x in b)+']'
def names(f,var):
    s=open('/repo/scripts/validation/'+f,encoding='utf8').read()
    return re.findall(r'\$'+var+r'\s*!=\s*"([^"]*)"',s)
def script_files():
    r=[]
    for d in ['system','validation']:
        for f in sorted(os.listdir('/repo/scripts/'+d)):
            if d=='system' and f in('constants.scss','functions.scss'):
                r.append(('/usr/lib/csspp/scripts/'+d+'/'+f,open('/repo/scripts/'+d+'/'+f,'rb').read()))
    return r
def prelude():
    sc={}
    for k,f in [('PseudoClasses','pseudo-classes.scss'),('PseudoNthFunctions','pseudo-nth-functions.scss'),('PseudoFunctions','pseudo-functions.scss'),('PseudoElements','pseudo-elements.scss'),('Languages','languages.scss'),('Countries','countries.scss')]:
        s=open('/repo/scripts/validation/'+f).read()
        sc[k]=re.findall(r'!=\s*"([^"]*)"',s)
    out='''From Coq Require Import String ZArith List Bool Floats.SpecFloat.
From Verif Require Import Base NodeHeap DecText DecFmt.
From Verif Require Lexer Parser Expr Functions Selector Assembler NodeText.
From Verif Require Import Compiler Compile Pipeline.
Import ListNotations.
Open Scope string_scope. Open Scope list_scope. Open Scope Z_scope.
Definition int_of (x : f64) : option Z := match x with S754_zero _ => Some 0 | S754_finite s m e => let v := if 0 <=? e then Some (Z.pos m * 2 ^ e) else if Z.pos m mod 2 ^ (- e) =? 0 then Some (Z.pos m / 2 ^ (- e)) else None in option_map (fun v => if s then - v else v) v | _ => None end.
Fixpoint pown (b : f64) (n : nat) : f64 := match n with O => f64_of_Z 1 | S k => f64_mul b (pown b k) end.
Definition lm : libm := mkLibm (fun b e => match int_of e, int_of b with
  | Some k, Some i => if 0 <=? k then f64_of_Z (i ^ k) else f64_div (f64_of_Z 1) (f64_of_Z (i ^ (- k)))
  | Some k, None => if 0 <=? k then pown b (Z.to_nat k) else f64_div (f64_of_Z 1) (pown b (Z.to_nat (- k)))
  | None, _ => S754_nan end).
Definition i1 (x : f64) := x.
Definition env : Functions.fenv := Functions.mkFE lm i1 i1 i1 i1 i1 i1 i1 12345 3 (fun d => decimal_number_to_string lm 6 d false) (fun _ _ => []) (fun _ _ => Expr.ret None) (fun a => Expr.ret (Some a)).
'''
    for k,l in sc.items(): out+='Definition l%s : list str := [%s].\n'%(k,';'.join('zs "%s"'%x for x in l))
    out+='''Definition checks : Selector.checks := Selector.mkChecks (fun sc n => let l := match sc with Selector.PseudoClasses => lPseudoClasses | Selector.PseudoNthFunctions => lPseudoNthFunctions | Selector.PseudoFunctions => lPseudoFunctions | Selector.PseudoElements => lPseudoElements | Selector.Languages => lLanguages | Selector.Countries => lCountries end in
  if existsb (str_eqb n) l then [] else [mkMsg LError (new_position 1 1) "script"]) (fun n => let (a, h) := plant n [] in match NodeText.node_text lm 3 (fun d => decimal_number_to_string lm 6 d false) (S (length h)) false false h a with Some t => t | None => [] end).
'''
    fs=script_files()
    for i,(p,c) in enumerate(fs): out+='Definition f%d : list Z := %s.\n'%(i,zl(c))
    out+='Definition files : str -> option (list Z) := fun f => '+''.join('if str_eqb f (zs "%s") then Some f%d else '%(p,i) for i,(p,c) in enumerate(fs))+'None.\n'
    out+='''Definition lv (l : level) : Z := match l with LDebug => 0 | LInfo => 1 | LWarning => 2 | LError => 3 | LFatal => 4 end.
Definition ms (l : list msg) : list Z * string := (map (fun w => lv (m_level w)) l, fold_right (fun w r => (m_text w ++ "|" ++ r)%string) EmptyString l).
Definition go m t := match translate (mkOut env files checks scripts_metrics scripts_slash) 150 m t with
  Ret u l => (match u with Some t => (0, t) | None => (1, []) end, ms l) | Throw _ l => ((2, []), ms l) | Undef l => ((3, []), ms l) | NoFuel => ((4, []), ([], EmptyString)) end.
'''
    return out
FUN=[]
def functions():
    s=open('/repo/scripts/system/functions.scss').read()
    return re.findall(r'@mixin\s+([a-z_0-9]+)\(',s)
def run(work,i,src,mode):
    pre=b''
    if b'_csspp_' in src or b'_csspp-' in src or any(re.search((r'\b%s\('%f).encode().replace(b'_',b'[-_]'),src) for f in FUN): pre=b'@import "system/constants.scss";@import "system/functions.scss";'
    p='%s/T%s.v'%(work,i)
    open(p,'w').write('From Verif Require Import Base.\nFrom Verif Require Assembler.\nRequire Import Pre.\nFrom Coq Require Import String ZArith List.\nImport ListNotations.\nOpen Scope string_scope. Open Scope list_scope. Open Scope Z_scope.\nSet Printing Width 1000000.\nEval vm_compute in (go Assembler.%s %s).\n'%(mode,zl(pre+src)))
    r=subprocess.run('ulimit -v 3500000; timeout 120 coqc -w none -R %s Verif -Q . "" T%s.v'%(TH,i),shell=True,cwd=work,capture_output=True,text=True)
    m=re.search(r'= \(\((\d), \[(.*?)\]\), \(\[(.*?)\], "(.*)"\)\)|= \(\((\d), \[(.*?)\]\), \((.*)',r.stdout,flags=re.S)
    mm=re.search(r'= \((\d), \[(.*?)\], \(\[(.*?)\], "(.*)"%?\w*\)\)',r.stdout,flags=re.S)
    if not mm: return ('stuck',(r.stdout+r.stderr)[:600])
    st=['ok','stop','throw','undef','nofuel'][int(mm.group(1))]
    txt=bytes(int(x)&255 for x in mm.group(2).replace('\n',' ').split(';') if x.strip()) if all(int(x)<256 for x in mm.group(2).split(';') if x.strip()) else repr(mm.group(2)).encode()
    lv=[int(x) for x in mm.group(3).split(';') if x.strip()]
    return (st,txt,lv,mm.group(4))
def main():
    global FUN
    work=sys.argv[1];os.makedirs(work,exist_ok=True);FUN=functions()
    open(work+'/Pre.v','w').write(prelude())
    r=subprocess.run('coqc -w none -R %s Verif -Q . "" Pre.v'%TH,shell=True,cwd=work,capture_output=True,text=True)
    if r.returncode: print(r.stderr[:2000]);return
    jobs=[]
    for f in sys.argv[2:]:
        for n,(title,src,runs,errs,bare,eu) in enumerate(tests(f)):
            if eu: continue
            if not runs: runs=[('COMPRESSED',None)]
            for k,(mode,exp) in enumerate(runs): jobs.append((os.path.basename(f),n,k,title,src,mode,exp,errs))
    print(len(jobs),'runs',flush=True)
    res=[]
    def one(j):
        f,n,k,title,src,mode,exp,errs=j
        r=run(work,'_%s_%d_%d'%(re.sub(r'\W','_',f),n,k),src,mode)
        ok=True;why=''
        if exp is not None:
            if r[0]!='ok': ok=False
            elif r[1].rstrip(b'\n')!=exp.rstrip(b'\n'): ok=False
        if errs is not None:
            e=[x for t in errs for x in t.decode('utf8','replace').split('\n') if x]
            want=[(3 if ': error:' in x else 2 if ': warning:' in x else 4 if ': fatal:' in x else 1 if ': info' in x else 0) for x in e]
            if r[0] in('stuck','undef','nofuel'): ok=False
            elif want!=r[2]: ok=False
        return (ok,j,r)
    with ThreadPoolExecutor(3) as ex:
        good=0
        for ok,j,r in ex.map(one,jobs):
            good+=ok
            if not ok:
                f,n,k,title,src,mode,exp,errs=j
                print('DIFF',f,n,k,title,mode,'\n  in  ',src,'\n  want',exp,errs,'\n  got ',r,flush=True)
        print('same:',good,'of',len(jobs))
if __name__=="__main__": main()

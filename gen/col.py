import re,sys
t=open(sys.argv[1]).read()
t=re.sub(r'/\*.*?\*/','',t,flags=re.S)
# collapse statements
out=[];cur=''
for ln in t.split('\n'):
    s=ln.strip()
    if not s: continue
    cur+=(' ' if cur else '')+s
    if s.endswith(';') or s.endswith('{') or s.endswith('}') or s.startswith('#') : out.append(cur);cur=''
print('\n'.join(out))

#!/bin/bash
# compile file with time limit; on failure print position
cd /verif/rocq/theories
timeout ${2:-100} coqc -time -Q . Verif $1 > /tmp/pt.log 2>&1
rc=$?
if [ $rc = 0 ]; then echo OK; exit 0; fi
grep -v "^Chars" /tmp/pt.log | head -${3:-40}
if [ $rc = 124 ]; then echo TIMEOUT; python3 - $1 <<'PY'
import re,sys
last=[l for l in open('/tmp/pt.log',errors='replace') if l.startswith('Chars')][-1]
a,b=map(int,re.findall(r'\d+',last)[:2])
s=open('/verif/rocq/theories/'+sys.argv[1],'rb').read()
print("LINE",s[:b].count(b'\n')+1, s[b:b+300].decode(errors='replace'))
PY
fi
exit 1
